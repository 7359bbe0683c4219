(** The messages of a mesh. *)
From Coq Require Import ZArith Bool Ascii String Floats.SpecFloat List Lia Arith ZifyBool ZifyNat.
From Verif Require Import Base BaseProofs ListSpec AttModel AttProps TopoModel TopoSpec TopoProofs TopoProofs2 TopoProofs3 TopoProofs5 TopoProps ParModel SortModel BuildProofs3 FileModel FileSpec FileProofs FileProofs2 FileProofs3 FileProofs4 SendModel SendSpec.
Import ListNotations.
Open Scope Z_scope.

(** ** Packing and unpacking *)
Lemma lor_add : forall x y n, 0 <= n -> 0 <= y < 2 ^ n -> Z.lor (Z.shiftl x n) y = 2 ^ n * x + y.
Proof.
  intros x y n N Y. rewrite Z.shiftl_mul_pow2 by lia. rewrite Z.mul_comm. rewrite <- Z.lxor_lor.
  - rewrite <- Z.add_nocarry_lxor; auto. rewrite Z.mul_comm, <- Z.shiftl_mul_pow2 by lia. apply Z.bits_inj'. intros k K. rewrite Z.land_spec, Z.bits_0.
    destruct (Z_lt_ge_dec k n); [rewrite Z.shiftl_spec_low by lia; auto|]. replace y with (y mod 2 ^ n) by (apply Z.mod_small; auto). rewrite Z.mod_pow2_bits_high by lia. apply andb_false_r.
  - rewrite Z.mul_comm, <- Z.shiftl_mul_pow2 by lia. apply Z.bits_inj'. intros k K. rewrite Z.land_spec, Z.bits_0.
    destruct (Z_lt_ge_dec k n); [rewrite Z.shiftl_spec_low by lia; auto|]. replace y with (y mod 2 ^ n) by (apply Z.mod_small; auto). rewrite Z.mod_pow2_bits_high by lia. apply andb_false_r.
Qed.
Lemma low3 : forall x y, 0 <= y < 8 -> Z.land (8 * x + y) 7 = y.
Proof. intros x y H. change 7 with (Z.ones 3). rewrite Z.land_ones by lia. change (2 ^ 3) with 8. rewrite Z.add_comm, Z.mul_comm, Z.mod_add by lia. apply Z.mod_small. auto. Qed.
Lemma high3 : forall x y, 0 <= y < 8 -> Z.shiftr (8 * x + y) 3 = x.
Proof. intros x y H. rewrite Z.shiftr_div_pow2 by lia. change (2 ^ 3) with 8. rewrite Z.add_comm, Z.mul_comm, Z.div_add by lia. rewrite Z.div_small by auto. lia. Qed.
Lemma low2 : forall x y (b : bool), 0 <= y < 4 -> Z.land (8 * x + (4 * b2z b + y)) 3 = y.
Proof.
  intros x y b H. change 3 with (Z.ones 2). rewrite Z.land_ones by lia. change (2 ^ 2) with 4. replace (8 * x + (4 * b2z b + y)) with (y + (2 * x + b2z b) * 4) by lia.
  rewrite Z.mod_add by lia. apply Z.mod_small. auto.
Qed.
Lemma bit2 : forall x y (b : bool), 0 <= y < 4 -> negb (Z.land (8 * x + (4 * b2z b + y)) 4 =? 0) = b.
Proof.
  intros x y b H.
  assert (E : Z.testbit (8 * x + (4 * b2z b + y)) 2 = b).
  { rewrite Z.testbit_odd, Z.shiftr_div_pow2 by lia. change (2 ^ 2) with 4. replace (8 * x + (4 * b2z b + y)) with (y + (2 * x + b2z b) * 4) by lia. rewrite Z.div_add by lia. rewrite Z.div_small by auto.
    rewrite Z.add_0_l, Z.odd_add, Z.odd_mul. change (Z.odd 2) with false. cbn [andb xorb]. destruct b; auto. }
  destruct (Z.eqb_spec (Z.land (8 * x + (4 * b2z b + y)) 4) 0) as [Q|Q]; cbn [negb].
  - assert (T : Z.testbit (Z.land (8 * x + (4 * b2z b + y)) 4) 2 = false) by (rewrite Q; auto). rewrite Z.land_spec, E in T. change (Z.testbit 4 2) with true in T. rewrite andb_true_r in T. auto.
  - destruct b; auto. exfalso. apply Q. apply Z.bits_inj'. intros k K. rewrite Z.land_spec, Z.bits_0. change 4 with (2 ^ 2) at 2. rewrite Z.pow2_bits_eqb by lia. destruct (Z.eqb_spec 2 k) as [<-|]; [rewrite E; auto|apply andb_false_r].
Qed.
Lemma ck32_ok : forall x, - 2 ^ 31 <= x < 2 ^ 31 -> ck32 x = Ok x.
Proof. intros. unfold ck32. assert ((- 2 ^ 31 <=? x) && (x <? 2 ^ 31) = true) as -> by lia. auto. Qed.

Lemma packM_from : forall A B (g : A -> result (list B)) h l acc, (forall x, In x l -> g x = Ok (h x)) -> foldM (fun out x => s <- g x ;; Ok (out ++ s)) acc l = Ok (acc ++ flat_map h l).
Proof.
  induction l as [|x l IH]; intros acc H; cbn [foldM flat_map]; [rewrite app_nil_r; auto|]. rewrite H by (left; auto). cbn [bind]. rewrite IH by (intros; apply H; right; auto). rewrite <- app_assoc. auto.
Qed.
Lemma packM_ok : forall A B (g : A -> result (list B)) h l, (forall x, In x l -> g x = Ok (h x)) -> packM g l = Ok (flat_map h l).
Proof. intros. unfold packM. erewrite packM_from by eauto. auto. Qed.
Lemma map_zrange : forall A B (h : A -> B) (b : list A) d, map (fun j => h (nth (Z.to_nat j) b d)) (zrange 0 (Z.of_nat (length b))) = map h b.
Proof.
  intros. unfold zrange. rewrite map_map, Z.sub_0_r, Nat2Z.id. rewrite (map_ext _ (fun k => h (nth k b d))) by (intros; rewrite Z.add_0_l, Nat2Z.id; auto).
  rewrite <- (map_map (fun k => nth k b d) h). f_equal. induction b as [|x b IH]; auto. cbn [length seq map nth]. f_equal. rewrite <- seq_shift, map_map. exact IH.
Qed.

Section Send.
Variables (s : smesh) (a : amesh) (w : bool).
Hypothesis P : outgoing s a w.
Let m := sm_m s.
Definition m0 : fmesh := mkFM (fm_t (sm_m s)) (fm_c (sm_m s)) (fm_x (sm_m s)) (fm_id (sm_m s)) (fm_v (sm_m s)) (fm_e (sm_m s)) (fm_f (sm_m s)) (fm_r (sm_m s)) [].
Lemma kind0 : forall d, kind m0 d = skind s d.
Proof using. reflexivity. Qed.
Lemma P0 : printable m0 a.
Proof using P.
  constructor; try apply P.
  - pose proof (sd_size _ _ _ P) as Q. unfold skind, kind in Q. cbn [Z.eqb Pos.eqb] in Q. unfold ZL in Q. cbn [m0 fm_v fm_e fm_f fm_r]. lia.
  - constructor.
Qed.
Lemma id_pos : forall d p, In p (skind s d) -> fm_id (sm_m s) p = pos (skind s d) p.
Proof using P.
  intros d p H. pose proof (pos_range _ _ H) as R. pose proof (pos_nth _ _ H) as E. rewrite (sd_id _ _ _ P d (Z.to_nat (pos (skind s d) p - 1)) p); [lia|].
  rewrite <- E at 2. apply nth_error_nth'. unfold ZL in R. lia.
Qed.

(** ** Entities *)
Definition auxl (bd : bool) (p : ptr) : list Z :=
  [8 * snd (fm_c (sm_m s) p) + fst (fm_c (sm_m s) p);
   8 * pi_master (sm_p s p) + (4 * b2z (bd && pi_bdry (sm_p s p)) + pi_ptype (sm_p s p)); pi_gid (sm_p s p)].
Lemma s_aux_ok : forall d p bd, In p (skind s d) -> s_aux s bd p = Ok (auxl bd p).
Proof using P.
  intros d p bd H. destruct (sd_class _ _ _ P d p H) as [C1 C2]. destruct (sd_par _ _ _ P d p H) as [C3 C4]. unfold s_aux, auxl, shift3. destruct (fm_c (sm_m s) p) as [gd gi]. cbn [fst snd] in *.
  rewrite (ck32_ok (Z.shiftl gi 3)) by (rewrite Z.shiftl_mul_pow2; lia). cbn [bind]. rewrite ck32_ok by (rewrite Z.shiftl_mul_pow2; lia). cbn [bind].
  rewrite lor_add by lia. change (2 ^ 3) with 8. f_equal. f_equal. f_equal.
  destruct bd; cbn [andb].
  - rewrite <- Z.lor_assoc. rewrite (lor_add (b2z (pi_bdry (sm_p s p))) (pi_ptype (sm_p s p)) 2) by lia. rewrite lor_add by (change (2 ^ 2) with 4; change (2 ^ 3) with 8; destruct (pi_bdry (sm_p s p)); cbn [b2z]; lia). reflexivity.
  - rewrite lor_add by lia. reflexivity.
Qed.
Lemma s_vertices_ok : s_vertices s = Ok (MInts (flat_map (auxl true) (skind s 0))).
Proof using P.
  unfold s_vertices. destruct (sd_size _ _ _ P) as (S0 & _). change (fm_v (sm_m s)) with (skind s 0). rewrite ck32_ok by (unfold ZL in *; lia). cbn [bind].
  rewrite (packM_ok _ _ _ (auxl true)); auto. intros v H. pose proof (proj1 (sd_v _ _ _ P v) H) as L.
  destruct (get_v _ _ v (reach_inv _ _ (sd_reach _ _ _ P)) ltac:(unfold live_v in L; congruence)) as (x & E & _). unfold getv. rewrite E. cbn [bind]. eapply s_aux_ok; eauto.
Qed.
Definition xyz (v : ptr) : list spec_float := let '(x, y, z) := fm_x (sm_m s) v in [x; y; z].
Lemma s_coords_ok : s_coords s = Ok (MDbls (flat_map xyz (skind s 0))).
Proof using P.
  unfold s_coords. change (fm_v (sm_m s)) with (skind s 0).
  rewrite (packM_ok _ _ _ xyz); auto. intros v H. pose proof (proj1 (sd_v _ _ _ P v) H) as L.
  destruct (get_v _ _ v (reach_inv _ _ (sd_reach _ _ _ P)) ltac:(unfold live_v in L; congruence)) as (x & E & _). unfold getv. rewrite E. cbn [bind]. unfold xyz. destruct (fm_x (sm_m s) v) as [[x1 y1] z1]. auto.
Qed.
Definition eends (e : ptr) : ptr * ptr := match a_e a e with Some (_, x) => x | None => (NULL, NULL) end.
Lemma eends_ok : forall e, In e (skind s 1) -> exists v0 v1, a_e a e = Some (true, (v0, v1)) /\ eends e = (v0, v1) /\ In v0 (skind s 0) /\ In v1 (skind s 0).
Proof using P.
  intros e H. apply (sd_e _ _ _ P) in H. destruct H as [[v0 v1] H]. exists v0, v1. unfold eends. rewrite H. split; auto. split; auto. destruct (ends_in _ _ P0 _ _ _ H) as (A & B & _). auto.
Qed.
Definition edgel (e : ptr) : list Z := pos (skind s 0) (fst (eends e)) :: pos (skind s 0) (snd (eends e)) :: auxl true e.
Lemma s_edge_ok : forall e, In e (skind s 1) -> s_edge s e = Ok (edgel e).
Proof using P.
  intros e H. destruct (eends_ok e H) as (v0 & v1 & A & B & I0 & I1). pose proof (reach_inv _ _ (sd_reach _ _ _ P)) as I.
  destruct (get_e _ _ e I ltac:(congruence)) as (r & E & V). rewrite A in V. unfold eview in V. inversion V as [[V1 V2 V3]].
  destruct (get_v _ _ v0 I ltac:(apply (sd_v _ _ _ P) in I0; unfold live_v in I0; congruence)) as (x0 & E0 & _). destruct (get_v _ _ v1 I ltac:(apply (sd_v _ _ _ P) in I1; unfold live_v in I1; congruence)) as (x1 & E1 & _).
  unfold s_edge, ME_Vertex, gete, edgel. rewrite E, B. cbn [bind fst snd]. change (0 =? 0) with true. change (1 =? 0) with false. change (1 =? 1) with true. cbv iota. cbn [bind]. rewrite <- V2, <- V3. unfold getv. rewrite E0. cbn [bind]. rewrite E1. cbn [bind].
  rewrite (s_aux_ok 1 e true H). cbn [bind]. rewrite (id_pos 0), (id_pos 0) by auto. auto.
Qed.
Definition bl (d : Z) (bd : bool) (b : list (ptr * bool)) (p : ptr) : list Z := Z.of_nat (length b) :: map (bnum (skind s d)) b ++ auxl bd p.
Lemma s_face_ok : forall f, In f (skind s 2) -> s_face s f = Ok (bl 1 true (fbdry a f) f).
Proof using P.
  intros f HF. pose proof (face_full _ _ P0 f HF) as H. set (b := fbdry a f) in *. pose proof (reach_inv _ _ (sd_reach _ _ _ P)) as I. destruct (inv_full _ _ _ _ I H) as (x & l & E & L & El & Eb & ND & LL & _).
  unfold s_face, MF_Edges, getf. rewrite E. cbn [bind nn]. rewrite El. cbn [nn bind]. change (NULL =? NULL) with true. change (1 =? 0) with false. cbv iota. cbn [bind].
  assert (ZL l = Z.of_nat (length b)) as -> by (rewrite Eb, vw_length; auto).
  rewrite (mapM_ok _ _ _ (fun j => bnum (skind s 1) (nth (Z.to_nat j) b (NULL, true)))).
  - cbn [bind]. rewrite (s_aux_ok 2 f true HF). cbn [bind]. unfold bl. rewrite map_zrange. auto.
  - intros j Hj. apply in_map_iff in Hj. destruct Hj as (k & <- & Hk). apply in_seq in Hk. rewrite Z.sub_0_r, Nat2Z.id in Hk. rewrite Z.add_0_l, Nat2Z.id.
    assert (Kl : (k < length l)%nat) by (rewrite Eb, vw_length in Hk; lia).
    unfold MF_EdgeDir_i, getf. rewrite E. cbn [bind].
    assert (D : bit64 (f_edirs x) (Z.of_nat k) = Ok (b2z (snd (nth k b (NULL, true))))).
    { rewrite Eb. rewrite nth_vw by auto. unfold bit64. unfold ZL in LL.
      assert ((0 <=? Z.of_nat k) && (Z.of_nat k <? 64) = true) as -> by lia. f_equal. rewrite Z.land_comm. change 1 with (Z.ones 1) at 1. rewrite Z.land_comm, Z.land_ones by lia.
      rewrite <- Z.bit0_mod. rewrite Z.shiftr_spec by lia. rewrite Z.add_0_l. destruct (Z.testbit _ _); reflexivity. }
    rewrite D. cbn [bind]. unfold lent. assert (Z.of_nat k <? 0 = false) as -> by lia. cbn [bind]. rewrite Nat2Z.id.
    assert (El' : nth k l NULL = fst (nth k b (NULL, true))) by (rewrite <- (map_nth fst); f_equal; rewrite Eb, vw_fst; auto). rewrite El'.
    set (x1 := nth k b (NULL, true)) in *. destruct (face_edges_in _ _ P0 _ _ H x1 ltac:(apply nth_In; lia)) as [K1 _].
    pose proof (proj1 (sd_e _ _ _ P (fst x1)) K1) as [z Lz]. destruct (get_e _ _ (fst x1) I ltac:(congruence)) as (r & Er & _). unfold gete. rewrite Er. cbn [bind]. rewrite (id_pos 1) by exact K1.
    unfold bnum. destruct (snd x1); cbn [b2z Z.eqb Pos.eqb]; f_equal; lia.
Qed.
Lemma s_region_ok : forall r, In r (skind s 3) -> s_region s r = Ok (bl 2 false (rbdry a r) r).
Proof using P.
  intros r HF. pose proof (reg_full _ _ P0 r HF) as H. set (b := rbdry a r) in *. pose proof (reach_inv _ _ (sd_reach _ _ _ P)) as I. destruct (inv_rfull _ _ _ _ _ I H) as (x & l & E & L & El & R & ND & _).
  unfold s_region, MR_Faces, getr. rewrite E. cbn [bind nn]. rewrite El. cbn [nn bind]. rewrite (rrep_len _ _ _ R).
  assert (Eb : l = map fst b) by (rewrite <- (rrep_vw _ _ _ R), vw_fst; auto).
  rewrite (mapM_ok _ _ _ (fun j => bnum (skind s 2) (nth (Z.to_nat j) b (NULL, true)))).
  - cbn [bind]. rewrite (s_aux_ok 3 r false HF). cbn [bind]. unfold bl. rewrite map_zrange. auto.
  - intros j Hj. apply in_map_iff in Hj. destruct Hj as (k & <- & Hk). apply in_seq in Hk. rewrite Z.sub_0_r, Nat2Z.id in Hk. rewrite Z.add_0_l, Nat2Z.id.
    unfold MR_FaceDir_i, getr. rewrite E. cbn [bind]. rewrite (rrep_get _ _ _ k R) by lia. cbn [bind]. unfold lent. assert (Z.of_nat k <? 0 = false) as -> by lia. cbn [bind]. rewrite Nat2Z.id.
    assert (El' : nth k l NULL = fst (nth k b (NULL, true))) by (rewrite <- (map_nth fst), Eb; auto). rewrite El'.
    set (x1 := nth k b (NULL, true)) in *. destruct (reg_faces_in _ _ P0 _ _ H x1 ltac:(apply nth_In; lia)) as [K1 _].
    pose proof (proj1 (sd_f _ _ _ P (fst x1)) K1) as [z Lz]. destruct (get_f _ _ (fst x1) I ltac:(congruence)) as (y & Er & _). unfold getf. rewrite Er. cbn [bind]. rewrite (id_pos 2) by exact K1.
    unfold bnum. destruct (snd x1); cbn [b2z Z.eqb Pos.eqb]; f_equal; lia.
Qed.
Definition facel (f : ptr) := bl 1 true (fbdry a f) f.
Definition regl (r : ptr) := bl 2 false (rbdry a r) r.
Lemma s_nonvertex_ok : s_nonvertex s = Ok (MInts (flat_map edgel (skind s 1)) :: MInts (flat_map facel (skind s 2)) :: if ZL (skind s 3) =? 0 then [] else [MInts (flat_map regl (skind s 3))]).
Proof using P.
  unfold s_nonvertex. change (fm_e (sm_m s)) with (skind s 1). change (fm_f (sm_m s)) with (skind s 2). change (fm_r (sm_m s)) with (skind s 3).
  rewrite (packM_ok _ _ _ edgel) by (intros; apply s_edge_ok; auto). cbn [bind]. rewrite (packM_ok _ _ _ facel) by (intros; apply s_face_ok; auto). cbn [bind]. rewrite (packM_ok _ _ _ regl) by (intros; apply s_region_ok; auto). auto.
Qed.
End Send.
