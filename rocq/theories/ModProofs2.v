(** Lemmas for splitting faces and for replacing a face in its regions. *)
From Coq Require Import ZArith List Lia Bool Arith ZifyBool ZifyNat Permutation.
From Verif Require Import Base BaseProofs ListSpec ParModel ParProps AttModel AttProps TopoModel TopoSpec TopoProofs TopoProofs2 TopoProofs3 TopoProofs4 TopoProofs5 TopoProofs6 TopoProofs7 TopoProps TopoProps2 ModModel ModProofs.
Import ListNotations.
Open Scope Z_scope.

(** ** The face of a region and its direction *)
Lemma face_dir_ok : forall t a r b1 f d b2, inv t a -> a_r a r = Some (true, Some (b1 ++ (f, d) :: b2)) -> MR_FaceDir t r f = Ok (b2z d).
Proof.
  intros t a r b1 f d b2 I H. destruct (inv_rfull _ _ _ _ _ I H) as (x & l & Hx & Lx & Hl & Rp & N & L). unfold MR_FaceDir, getr. rewrite Hx. cbn [bind]. rewrite Hl. cbn [nn bind].
  pose proof (rrep_get _ _ _ (length b1) Rp) as G. destruct Rp as (-> & _). rewrite map_app in *. cbn [map fst] in *. rewrite index_of_app. 2: { apply NoDup_remove_2 in N. rewrite in_app_iff in N. tauto. }
  rewrite map_length. rewrite G. rewrite app_nth2 by lia. rewrite Nat.sub_diag. auto. rewrite app_length. cbn. lia.
Qed.
Lemma sides_one : forall t a r q f d, inv t a -> has_face a r f d -> has_face a q f d -> r = q.
Proof.
  intros t a r q f d I Hr Hq. assert (Nr : r <> NULL) by (destruct Hr as (b & Hb & _); apply (r_nonnull _ _ _ I); congruence). assert (Nq : q <> NULL) by (destruct Hq as (b & Hb & _); apply (r_nonnull _ _ _ I); congruence).
  destruct (tfs t f) as [x|] eqn:Ex. destruct (i_uf _ _ I _ _ Ex r Nr) as [A1 A2]. destruct (i_uf _ _ I _ _ Ex q Nq) as [B1 B2]. destruct d. apply A1 in Hr. apply B1 in Hq. congruence. apply A2 in Hr. apply B2 in Hq. congruence.
  exfalso. destruct Hr as (b & Hb & Hi). pose proof (w_rf _ (i_w _ _ I) _ _ Hb) as F. rewrite Forall_forall in F. specialize (F _ Hi). destruct F as (y & Hy). cbn in Hy. rewrite <- (i_f _ _ I), Ex in Hy. discriminate.
Qed.

(** What becomes of the boundary of a region when [f] is replaced by [nus d], [d]
    being the direction [f] is used in: the first of them takes its place, the
    others are appended. *)
Definition exchange (f : ptr) (nus : bool -> list (ptr * bool)) (b : list (ptr * bool)) : list (ptr * bool) :=
  flat_map (fun x : ptr * bool => if fst x =? f then firstn 1 (nus (snd x)) else [x]) b ++ flat_map (fun x : ptr * bool => if fst x =? f then skipn 1 (nus (snd x)) else []) b.
Lemma exchange_out1 : forall f nus b, ~ In f (map fst b) -> flat_map (fun x : ptr * bool => if fst x =? f then firstn 1 (nus (snd x) : list (ptr * bool)) else [x]) b = b /\ flat_map (fun x : ptr * bool => if fst x =? f then skipn 1 (nus (snd x) : list (ptr * bool)) else []) b = [].
Proof.
  induction b as [|[g d] b IH]; cbn [flat_map map fst snd]; intros H; auto. destruct (Z.eqb_spec g f). cbn in H; tauto. destruct IH as [-> ->]. cbn in H. tauto. auto.
Qed.
Lemma exchange_mid : forall f nus b1 d b2, NoDup (map fst (b1 ++ (f, d) :: b2)) -> exchange f nus (b1 ++ (f, d) :: b2) = (b1 ++ firstn 1 (nus d) ++ b2) ++ skipn 1 (nus d).
Proof.
  intros f nus b1 d b2 N. rewrite map_app in N. cbn [map fst] in N. apply NoDup_remove_2 in N. rewrite in_app_iff in N. unfold exchange. rewrite !flat_map_app. cbn [flat_map fst snd]. rewrite Z.eqb_refl.
  destruct (exchange_out1 f nus b1) as [-> ->]. tauto. destruct (exchange_out1 f nus b2) as [-> ->]. tauto. cbn [app]. rewrite app_nil_r. auto.
Qed.
Lemma exchange_out : forall f nus b, ~ In f (map fst b) -> exchange f nus b = b.
Proof. intros. unfold exchange. destruct (exchange_out1 f nus b H) as [-> ->]. apply app_nil_r. Qed.
Lemma subst1_mid : forall f n b1 d b2, NoDup (map fst (b1 ++ (f, d) :: b2)) -> subst1 f n (b1 ++ (f, d) :: b2) = b1 ++ n :: b2.
Proof.
  intros f n b1 d b2 N. rewrite map_app in N. cbn [map fst] in N. apply NoDup_remove_2 in N. rewrite in_app_iff in N. unfold subst1. rewrite map_app. cbn [map fst]. rewrite Z.eqb_refl.
  assert (E : forall b : list (ptr * bool), ~ In f (map fst b) -> map (fun x : ptr * bool => if fst x =? f then n else x) b = b).
  { induction b as [|[g e] b IH]; cbn [map fst]; intros H; auto. destruct (Z.eqb_spec g f). cbn in H; tauto. rewrite IH; auto. cbn in H. tauto. }
  rewrite !E by tauto. auto.
Qed.
Lemma subst_all_mid : forall f n nus b1 d b2, NoDup (map fst (b1 ++ (f, d) :: b2)) -> subst_all [f] (n :: nus) (b1 ++ (f, d) :: b2) = (b1 ++ n :: b2) ++ nus.
Proof. intros. cbn [subst_all]. rewrite subst1_mid by auto. auto. Qed.

Lemma exchange_faces : forall f (nus : bool -> list (ptr * bool)) F,
  (forall t r d, MR_FaceDir t r f = Ok (b2z d) -> F t r = MR_Replace_Faces t r [f] (map fst (nus d)) (dirz (nus d))) ->
  (forall d, nus d <> [] /\ NoDup (map fst (nus d)) /\ ~ In f (map fst (nus d))) ->
  (forall g d, In (g, d) (nus true) -> In (g, d) (nus false) -> False) ->
  forall rs t a, reach t a -> NoDup rs -> (forall r, In r rs -> exists d, has_face a r f d) ->
  (forall d, Forall (fun x => full_f a (fst x)) (nus d)) ->
  (forall r b d, In r rs -> a_r a r = Some (true, Some b) -> In (f, d) b -> (forall p, In p (map fst (nus d)) -> ~ In p (map fst b)) /\ (length b + length (nus d) <= 513)%nat /\ sides_free a r (nus d)) ->
  exists t' a', foldM F t rs = Ok t' /\ reach t' a' /\ a_v a' = a_v a /\ a_e a' = a_e a /\ a_f a' = a_f a /\ a_next a' = a_next a /\
    forall r, a_r a' r = if mem r rs then on_bdry (exchange f nus) (a_r a r) else a_r a r.
Proof.
  intros f nus F HF G1 G2. induction rs as [|r rs IH]; intros t a R N HR HFu HB.
  - exists t, a. cbn. auto 10.
  - destruct (HR r (or_introl eq_refl)) as (d & b & Hb & Hi). destruct (HB r b d (or_introl eq_refl) Hb Hi) as (B1 & B2 & B3). pose proof (reach_inv _ _ R) as I. destruct (w_rnd _ (i_w _ _ I) _ _ _ Hb) as [Nb Lb].
    apply in_split in Hi. destruct Hi as (b1 & b2 & Eb). destruct (G1 d) as (Gn & Gd & Gf). inversion N as [|? ? Nr Nrs]; subst.
    assert (Hrb : rbdry a r = b1 ++ (f, d) :: b2) by (unfold rbdry; rewrite Hb; auto).
    destruct (reach_step t a (TReplaceFaces r [f] (nus d)) R) as (t1 & E1 & R1).
    { cbn [tpre]. rewrite Hrb. split; [eauto|]. split. constructor; [intros []|constructor]. split. intros x [<-|[]]. rewrite map_app, in_app_iff. cbn. auto. split. destruct (nus d); cbn in *; [congruence|lia]. split; auto. split; auto. split; auto. split; auto. unfold maxrf. cbn [length]. lia. }
    cbn [tstep] in E1. cbn [foldM]. rewrite (HF t r d (face_dir_ok _ _ _ _ _ _ _ I Hb)), E1. cbn [bind].
    cbn [astep] in R1. rewrite Hrb in R1. set (b' := subst_all [f] (nus d) (b1 ++ (f, d) :: b2)) in *.
    assert (Eb' : b' = exchange f nus (b1 ++ (f, d) :: b2)). { unfold b'. rewrite exchange_mid by auto. destruct (nus d) as [|n nd]; [congruence|]. rewrite subst_all_mid by auto. cbn [firstn skipn]. auto. }
    assert (K : forall q, q <> r -> a_r (set_rb a r b') q = a_r a q). { intros q Hq. unfold set_rb. ra. rewrite upd_other; auto. }
    destruct (IH t1 _ R1 Nrs) as (t2 & a2 & E2 & R2 & A1 & A2 & A3 & A4 & A5).
    + intros q Hq. destruct (HR q (or_intror Hq)) as (e & c & Hc & Hi). exists e, c. rewrite K; auto. intros ->. auto.
    + intros e. eapply Forall_impl; [|apply (HFu e)]. intros x (y & Hy). exists y. unfold set_rb. ra. auto.
    + intros q c e Hq Hc Hi. assert (Hqr : q <> r) by (intros ->; auto). rewrite K in Hc by auto. destruct (HB q c e (or_intror Hq) Hc Hi) as (C1 & C2 & C3). split; auto. split; auto.
      intros g s y Hg (c' & Hc' & Hi'). destruct (Z.eq_dec y r) as [->|Hyr].
      * exfalso. unfold set_rb in Hc'. revert Hc'. ra. rewrite upd_same, Hb. intros Hc'. inversion Hc'. subst c'. rewrite Eb', exchange_mid in Hi' by auto.
        assert (Hs : In (g, s) (nus d) \/ In (g, s) (b1 ++ (f, d) :: b2)). { rewrite !in_app_iff in Hi'. rewrite in_app_iff. cbn [In]. destruct (nus d) as [|n nd]; cbn [firstn skipn In] in *; tauto. }
        destruct Hs as [Hs|Hs].
        -- assert (e <> d). { intros ->. apply Hqr. eapply (sides_one t a q r f d); eauto. exists c; auto. exists (b1 ++ (f, d) :: b2). split; auto. rewrite in_app_iff. cbn; auto. }
           destruct e, d; try congruence; eapply G2; eauto.
        -- apply Hqr. symmetry. apply (C3 g s r Hg). exists (b1 ++ (f, d) :: b2). auto.
      * apply (C3 g s y Hg). exists c'. rewrite <- K by auto. auto.
    + rewrite E2. exists t2, a2. split; auto. split; auto. split; auto. split; auto. split; auto. split; auto. intros q. rewrite A5. change (mem q (r :: rs)) with ((q =? r) || mem q rs). destruct (Z.eqb_spec q r) as [->|Hq]; cbn [orb].
      * replace (mem r rs) with false by (symmetry; apply not_true_iff_false; rewrite mem_In; auto). unfold set_rb. ra. rewrite upd_same, Hb. cbn [on_bdry]. rewrite Eb'. auto.
      * rewrite K by auto. auto.
Qed.

(** ** Walking around a face *)
Lemma vend_ok : forall t a x, inv t a -> edge_ok a x -> ME_Vertex t (fst x) (b2z (snd x)) = Ok (vend a x).
Proof.
  intros t a [e d] I (p & Hp). cbn [fst snd] in *. unfold vend. cbn [fst snd]. rewrite Hp. destruct (get_e t a e I ltac:(congruence)) as (y & Hy & Ay). unfold ME_Vertex, gete. rewrite Hy. cbn [bind]. rewrite Hp in Ay. unfold eview in Ay. inversion Ay. destruct d; auto.
Qed.
Lemma vat_ok : forall t a x, inv t a -> edge_ok a x -> ME_Vertex t (fst x) (lnot (b2z (snd x))) = Ok (vat a x).
Proof.
  intros t a [e d] I (p & Hp). cbn [fst snd] in *. unfold vat. cbn [fst snd]. rewrite Hp. destruct (get_e t a e I ltac:(congruence)) as (y & Hy & Ay). unfold ME_Vertex, gete. rewrite Hy. cbn [bind]. rewrite Hp in Ay. unfold eview in Ay. inversion Ay. destruct d; auto.
Qed.
Definition zd (b : list (ptr * bool)) : list (ptr * Z) := map (fun x : ptr * bool => (fst x, b2z (snd x))) b.
Lemma at_rem : forall b i, b <> [] -> 0 <= i -> let n := Z.of_nat (length b) in
  lent (map fst b) (Z.rem i n) = Ok (fst (nth (Z.to_nat i mod length b) b dflt)) /\ rdl (dirz b) (Z.rem i n) = Ok (b2z (snd (nth (Z.to_nat i mod length b) b dflt))).
Proof.
  intros b i Hb Hi n. assert (0 < n) by (unfold n; destruct b; [congruence|cbn; lia]). rewrite Z.rem_mod_nonneg by lia. pose proof (Z.mod_pos_bound i n H).
  assert (E : Z.to_nat (i mod n) = (Z.to_nat i mod length b)%nat). { rewrite Z2Nat.inj_mod by lia. unfold n. rewrite Nat2Z.id. auto. }
  split. unfold lent. replace (i mod n <? 0) with false by lia. rewrite E. f_equal. apply (map_nth fst b dflt).
  unfold dirz. rewrite rdl_ok by (rewrite map_length; auto). rewrite E. f_equal. rewrite (nth_indep _ 0 (b2z (snd dflt))). apply (map_nth (fun x : ptr * bool => b2z (snd x)) b dflt).
  rewrite map_length. apply Nat.mod_upper_bound. destruct b; cbn; congruence.
Qed.
Lemma gather_ok : forall t a b stop bad x, inv t a -> b <> [] -> Forall (edge_ok a) b -> vend a x = stop ->
  forall s i cells, (length s < cells)%nat -> 0 <= i ->
  (forall k, (k <= length s)%nat -> nth ((Z.to_nat i + k) mod length b) b dflt = nth k (s ++ [x]) dflt) ->
  Forall (fun y => vend a y <> stop /\ vend a y <> bad) s ->
  gather_edges t (map fst b) (dirz b) (Z.of_nat (length b)) i stop bad cells = Ok (zd (s ++ [x]), i + Z.of_nat (length s)).
Proof.
  intros t a b stop bad x I Hb HE Hx. induction s as [|y s IH]; intros i cells Hc Hi HN HS; (destruct cells as [|c]; [cbn in Hc; lia|]); cbn [gather_edges];
  destruct (at_rem b i Hb Hi) as [E1 E2]; rewrite E1; cbn [bind]; rewrite E2; cbn [bind]; pose proof (HN 0%nat ltac:(lia)) as H0; rewrite Nat.add_0_r in H0; cbn [app nth] in H0; rewrite H0;
  (assert (HI : edge_ok a (nth (Z.to_nat i mod length b) b dflt)) by (rewrite Forall_forall in HE; apply HE; apply nth_In; apply Nat.mod_upper_bound; destruct b; cbn; congruence)); rewrite H0 in HI; rewrite (vend_ok t a _ I HI); cbn [bind].
  - rewrite Hx, Z.eqb_refl. cbn. f_equal. f_equal. lia.
  - pose proof (Forall_inv HS) as [Y1 Y2]. pose proof (Forall_inv_tail HS) as HS'. destruct (Z.eqb_spec (vend a y) stop); [congruence|]. destruct (Z.eqb_spec (vend a y) bad); [congruence|].
    rewrite (IH (i + 1) c); auto. 2: cbn in Hc; lia. 2: lia. cbn. f_equal. f_equal. lia.
    intros k Hk. specialize (HN (S k) ltac:(cbn; lia)). cbn [app nth] in HN. rewrite <- HN. f_equal. f_equal. lia.
Qed.
Lemma find_first_ok : forall t a b v0, inv t a -> Forall (edge_ok a) b -> forall k0, (k0 <= length b)%nat -> (exists j, (k0 <= j < length b)%nat /\ vat a (nth j b dflt) = v0) -> exists j,
  find_first t (map fst b) (dirz b) v0 (zrange (Z.of_nat k0) (Z.of_nat (length b))) = Ok (Some (Z.of_nat j)) /\ (k0 <= j < length b)%nat /\ vat a (nth j b dflt) = v0.
Proof.
  intros t a b v0 I HE k0 Hk. assert (exists n, length b = k0 + n)%nat as [n Hn]. { exists (length b - k0)%nat. lia. } revert k0 Hk Hn. induction n as [|n IH]; intros k0 Hk Hn (j & Hj & Ej). lia.
  replace (Z.of_nat (length b)) with (Z.of_nat k0 + Z.of_nat (S n)) by lia. rewrite zrange_cons. cbn [find_first]. assert (Hb : b <> []) by (destruct b; cbn in *; [lia|congruence]).
  destruct (at_rem b (Z.of_nat k0) Hb ltac:(lia)) as [E1 E2]. rewrite Z.rem_small in E1, E2 by lia. rewrite E1. cbn [bind]. rewrite E2. cbn [bind]. rewrite Nat2Z.id, Nat.mod_small by lia.
  assert (HI : edge_ok a (nth k0 b dflt)) by (rewrite Forall_forall in HE; apply HE; apply nth_In; lia). rewrite (vat_ok t a _ I HI). cbn [bind]. destruct (Z.eqb_spec (vat a (nth k0 b dflt)) v0).
  - exists k0. split; auto. split; auto. lia.
  - replace (Z.of_nat k0 + 1) with (Z.of_nat (S k0)) by lia. replace (Z.of_nat (S k0) + Z.of_nat n) with (Z.of_nat (length b)) by lia. destruct (IH (S k0)) as (j' & E & Hj' & Ej'). lia. lia.
    exists j. split; auto. assert (j <> k0) by (intros ->; auto). lia. exists j'. split; auto. split; auto. lia.
Qed.
Lemma path_vat : forall a b u w, path a u b w -> u :: map (vend a) b = map (vat a) b ++ [w].
Proof.
  intros a. induction b as [|[e d] b IH]; intros u w H; cbn [path map app] in *. congruence. destruct H as (x & Hx & _ & Hs & H). apply IH in H. unfold vat at 1, vend at 1. cbn [fst snd]. rewrite Hx, Hs. f_equal. auto.
Qed.
Lemma path_edge_ok : forall a b u w, path a u b w -> Forall (edge_ok a) b.
Proof. intros a. induction b as [|[e d] b IH]; intros u w H; constructor; cbn [path] in H; destruct H as (x & Hx & _ & _ & H). exists x. auto. eapply IH; eauto. Qed.

(** The loop, walked from [v0], splits at [v1]. *)
Lemma split_loop : forall a b u v0 v1 i, path a u b u -> NoDup (map (vat a) b) -> (i < length b)%nat -> vat a (nth i b dflt) = v0 -> In v1 (map (vat a) b) -> v0 <> v1 ->
  exists s0 x0 s1 x1, rot i b = (s0 ++ [x0]) ++ (s1 ++ [x1]) /\ path a v0 (s0 ++ [x0]) v1 /\ path a v1 (s1 ++ [x1]) v0 /\
    vend a x0 = v1 /\ vend a x1 = v0 /\ Forall (fun y => vend a y <> v1 /\ vend a y <> v0) s0 /\ Forall (fun y => vend a y <> v0 /\ vend a y <> v1) s1.
Proof.
  intros a b u v0 v1 i HP HN Hi Hv H1 Hne. assert (PR : path a v0 (rot i b) v0).
  { unfold rot. rewrite <- (firstn_skipn i b) in HP. apply path_app in HP. destruct HP as (w & P1 & P2). assert (w = v0). { destruct (skipn i b) as [|[e d] s] eqn:Es. apply (f_equal (@length _)) in Es. rewrite skipn_length in Es. cbn in Es. lia.
      rewrite <- Hv. rewrite <- (firstn_skipn i b), Es. rewrite app_nth2 by (rewrite firstn_length; lia). rewrite firstn_length, Nat.min_l, Nat.sub_diag by lia. cbn [nth]. cbn [path] in P2. destruct P2 as (x & Hx & _ & Hs & _). unfold vat. cbn [fst snd]. rewrite Hx. auto. }
    subst w. apply path_app. exists u. auto. }
  assert (PM : Permutation (map (vat a) b) (map (vat a) (rot i b))). { apply Permutation_map. unfold rot. rewrite <- (firstn_skipn i b) at 1. apply Permutation_app_comm. }
  assert (NR : NoDup (map (vat a) (rot i b))) by (eapply Permutation_NoDup; eauto). apply (Permutation_in _ PM) in H1. apply in_map_iff in H1. destruct H1 as (y & Hy & Hin). apply in_split in Hin. destruct Hin as (b0 & b1 & E).
  rewrite E in PR. pose proof PR as PR'. apply path_app in PR'. destruct PR' as (w & P0 & P1). assert (w = v1). { destruct y as [e d]. cbn [path] in P1. destruct P1 as (x & Hx & _ & Hs & _). rewrite <- Hy. unfold vat. cbn [fst snd]. rewrite Hx. auto. } subst w.
  destruct (exists_last (l := b0)) as (s0 & x0 & E0). { intros ->. cbn in P0. congruence. } destruct (exists_last (l := y :: b1)) as (s1 & x1 & E1). { congruence. }
  rewrite E1 in *. subst b0. rewrite E in NR. exists s0, x0, s1, x1. split; auto. split; auto. split; auto. apply path_vat in P0. apply path_vat in P1. rewrite !map_app in *. cbn [map] in *.
  assert (A0 : vend a x0 = v1). { change (v0 :: map (vend a) s0 ++ [vend a x0]) with ((v0 :: map (vend a) s0) ++ [vend a x0]) in P0. apply app_inj_tail in P0. tauto. }
  assert (A1 : vend a x1 = v0). { change (v1 :: map (vend a) s1 ++ [vend a x1]) with ((v1 :: map (vend a) s1) ++ [vend a x1]) in P1. apply app_inj_tail in P1. tauto. }
  assert (B0 : v0 :: map (vend a) s0 = map (vat a) s0 ++ [vat a x0]). { change (v0 :: map (vend a) s0 ++ [vend a x0]) with ((v0 :: map (vend a) s0) ++ [vend a x0]) in P0. apply app_inj_tail in P0. tauto. }
  assert (B1 : v1 :: map (vend a) s1 = map (vat a) s1 ++ [vat a x1]). { change (v1 :: map (vend a) s1 ++ [vend a x1]) with ((v1 :: map (vend a) s1) ++ [vend a x1]) in P1. apply app_inj_tail in P1. tauto. }
  split; auto. split; auto. rewrite <- B0, <- B1 in NR. apply nd_app in NR. destruct NR as (N0 & N1 & N2). inversion N0; subst. inversion N1; subst.
  split; apply Forall_forall; intros z Hz; apply (in_map (vend a)) in Hz.
  - split. intros HH. apply (N2 (vend a z)). cbn; auto. rewrite HH. cbn. auto. intros HH. rewrite HH in Hz. auto.
  - split. intros HH. apply (N2 (vend a z)). rewrite HH. cbn; auto. cbn. auto. intros HH. rewrite HH in Hz. auto.
Qed.

(** ** A new face *)
Lemma new_face_ok : forall t a b, reach t a -> NoDup (map fst b) -> (length b <= 32)%nat -> Forall (edge_ok a) b -> exists t' a',
  MF_Set_Edges (fst (MF_New t)) (snd (MF_New t)) (Z.of_nat (length b)) (map fst b) (dirz b) = Ok t' /\ snd (MF_New t) = a_next a /\ reach t' a' /\
  a_v a' = a_v a /\ a_e a' = a_e a /\ a_r a' = a_r a /\ a_next a' = a_next a + 1 /\ forall g, a_f a' g = if g =? a_next a then Some (true, Some b) else a_f a g.
Proof.
  intros t a b R N L HE. destruct (reach_step t a TNewF R I) as (t0 & E0 & R0). cbn [tstep] in E0. assert (E0' : fst (MF_New t) = t0) by congruence. clear E0.
  assert (En : snd (MF_New t) = a_next a) by (cbn; apply (i_n _ _ (reach_inv _ _ R))). rewrite En, E0'.
  destruct (reach_step t0 _ (TSetEdges (a_next a) b) R0) as (t1 & E1 & R1). { cbn [tpre astep]. ra. rewrite upd_same. split; auto. }
  cbn [tstep] in E1. exists t1. eexists. split; [exact E1|]. split; auto. split; [exact R1|]. cbn [astep]. unfold set_fb. ra. split; auto. split; auto. split; auto. split; auto.
  intros g. rewrite upd_same. unfold upd. destruct (g =? a_next a); auto.
Qed.

(** ** Common edge of two vertices *)
Lemma common_go_ok : forall t a v1 l, inv t a -> (forall e, In e l -> exists x, a_e a e = Some (true, x)) -> exists e, common_go t v1 l = Ok e /\
  ((e = NULL /\ forall g, In g l -> ~ is_end a g v1) \/ (In e l /\ is_end a e v1)).
Proof.
  intros t a v1 l I. induction l as [|g l IH]; intros H; cbn [common_go].
  { exists NULL. split; [reflexivity|]. left. split; [reflexivity|]. intros g []. }
  destruct (H g (or_introl eq_refl)) as ((p & q) & Hg). destruct (get_e t a g I ltac:(congruence)) as (y & Hy & Ay). rewrite Hg in Ay. unfold eview in Ay. inversion Ay as [[Y1 Y2 Y3]]. unfold ME_UsesVertex, gete. rewrite Hy. cbn [bind].
  destruct ((e_v0 y =? v1) || (e_v1 y =? v1)) eqn:E.
  - exists g. split; auto. right. split; [cbn; auto|]. exists (e_v0 y), (e_v1 y). subst. split; auto. lia.
  - destruct IH as (e & E1 & E2). intros e He. apply H. cbn; auto. exists e. split; auto. destruct E2 as [(E2 & E3)|(E2 & E3)]; [left|right; cbn; auto]. split; auto. intros h [<-|Hh]; auto.
    intros (p' & q' & Hpq & Hv). rewrite Hg in Hpq. inversion Hpq. subst. lia.
Qed.
Lemma common_edge_ok : forall t a v0 v1, reach t a -> live_v a v0 -> (forall e p q, a_e a e = Some (true, (p, q)) -> ~ (p = v0 /\ q = v1) /\ ~ (p = v1 /\ q = v0)) -> v0 <> v1 -> MVs_CommonEdge t v0 v1 = Ok NULL.
Proof.
  intros t a v0 v1 R HL HN Hne. pose proof (reach_inv _ _ R) as I. destruct (C26_vertex_edges t a v0 R) as (o & E & A). unfold live_v in HL. congruence. unfold MVs_CommonEdge. rewrite E. cbn [bind]. destruct o as [l|]; auto.
  destruct A as (_ & _ & A). destruct (common_go_ok t a v1 l I) as (e & E1 & E2). intros g Hg. apply A in Hg. destruct Hg as (p & q & Hg & _). eauto. rewrite E1. destruct E2 as [(-> & _)|(E2 & (p & q & E3 & E4))]; auto.
  exfalso. apply A in E2. destruct E2 as (p' & q' & E5 & E6). rewrite E3 in E5. inversion E5. subst p' q'. specialize (HN e p q E3). assert (p <> q \/ p = q) by lia. destruct HN. destruct E4, E6; subst; try congruence; tauto.
Qed.
Lemma firstn_skipn_in : forall A (x : A) n l, In x (firstn n l) \/ In x (skipn n l) <-> In x l.
Proof. intros. rewrite <- in_app_iff, firstn_skipn. tauto. Qed.
Lemma exchange_in : forall f nus b x, In x (exchange f nus b) <-> (In x b /\ fst x <> f) \/ exists d, In (f, d) b /\ In x (nus d).
Proof.
  intros f nus b x. unfold exchange. rewrite in_app_iff, !in_flat_map. split.
  - intros [([g d] & Hy & Hx)|([g d] & Hy & Hx)]; cbn [fst snd] in Hx; destruct (Z.eqb_spec g f) as [->|Hg].
    + right. exists d. split; auto. rewrite <- (firstn_skipn_in _ x 1). auto.
    + destruct Hx as [<-|[]]. left. auto.
    + right. exists d. split; auto. rewrite <- (firstn_skipn_in _ x 1). auto.
    + destruct Hx.
  - intros [(Hb & Hf)|(d & Hb & Hx)].
    + left. exists x. split; auto. destruct (Z.eqb_spec (fst x) f). congruence. cbn; auto.
    + rewrite <- (firstn_skipn_in _ x 1) in Hx. destruct Hx; [left|right]; exists (f, d); cbn [fst snd]; rewrite Z.eqb_refl; auto.
Qed.
Lemma exchange_not_in : forall f nus b, (forall d, ~ In f (map fst (nus d))) -> ~ In f (map fst (exchange f nus b)).
Proof.
  intros f nus b H Hi. apply in_map_iff in Hi. destruct Hi as (x & Ex & Hx). apply exchange_in in Hx. destruct Hx as [(_ & Hx)|(d & _ & Hx)]. auto. apply (H d). rewrite <- Ex. apply in_map. auto.
Qed.
Lemma face_dirs_ok : forall t a f b, inv t a -> a_f a f = Some (true, Some b) -> mapM (MF_EdgeDir_i t f) (zrange 0 (ZL (map fst b))) = Ok (dirz b).
Proof.
  intros t a f b I H. destruct (face_rep _ _ _ _ I H) as (x & l & Hx & Hl & (-> & L & B)). unfold ZL. rewrite map_length. apply mapM_ext_ok. rewrite zrange_length. unfold dirz. rewrite map_length. lia.
  intros i d e Hi. rewrite zrange_length in Hi. rewrite nth_zrange by lia. unfold MF_EdgeDir_i, getf. rewrite Hx. cbn [bind]. rewrite bit64_ok by lia. unfold dirz. rewrite (nth_indep _ e (b2z (snd dflt))) by (rewrite map_length; lia).
  rewrite (map_nth (fun x : ptr * bool => b2z (snd x))). f_equal. f_equal. replace (0 + Z.of_nat i) with (Z.of_nat i) by lia. apply B. lia.
Qed.
Lemma zd_fst : forall b e d, map fst (zd b ++ [(e, b2z d)]) = map fst (b ++ [(e, d)]).
Proof. intros. unfold zd. rewrite !map_app, map_map. auto. Qed.
Lemma zd_snd : forall b e d, map snd (zd b ++ [(e, b2z d)]) = dirz (b ++ [(e, d)]).
Proof. intros. unfold zd, dirz. rewrite !map_app, map_map. auto. Qed.
Lemma zd_len : forall b, length (zd b) = length b.
Proof. intros. unfold zd. apply map_length. Qed.
Lemma path_same : forall a a' b u w, (forall x, In x (map fst b) -> a_e a' x = a_e a x) -> path a u b w -> path a' u b w.
Proof.
  intros a a'. induction b as [|[e d] b IH]; intros u w H HP; cbn [path] in *; auto. destruct HP as (x & Hx & H1 & H2 & H3). exists x. rewrite H by (cbn; auto). split; auto. split; auto. split; auto. apply IH; auto. intros y Hy. apply H. cbn; auto.
Qed.
Lemma vat_same : forall a a' x, a_e a' (fst x) = a_e a (fst x) -> vat a' x = vat a x.
Proof. intros a a' x H. unfold vat. rewrite H. auto. Qed.
