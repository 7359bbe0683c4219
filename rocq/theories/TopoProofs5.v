(** The invariant under the operations on regions. *)
From Coq Require Import ZArith List Lia Bool Arith ZifyBool ZifyNat.
From Verif Require Import Base BaseProofs ListSpec ParModel ParProps AttModel AttProps TopoModel TopoSpec TopoProofs TopoProofs2 TopoProofs3 TopoProofs4.
Import ListNotations.
Open Scope Z_scope.

(** ** Direction bits in words of 32 *)
Definition cap (w : list Z) : Z := 32 * Z.of_nat (length w).
Lemma fd_get_ok : forall w i, 0 <= i < cap w -> fd_get w i = Ok (b2z (rg w i)).
Proof.
  intros. unfold fd_get, cap in *. replace (i <? 0) with false by lia. rewrite rdl_ok by lia. cbn [bind]. f_equal. unfold rg.
  set (x := nth _ w 0). set (k := i mod 32). assert (0 <= k < 32) by (apply Z.mod_pos_bound; lia).
  change 1 with (Z.ones 1) at 1. rewrite Z.land_ones by lia. change (2 ^ 1) with 2. rewrite <- Z.bit0_mod, Z.shiftr_spec by lia. rewrite Z.add_0_l. destruct (Z.testbit x k); auto.
Qed.
Lemma nth_upd : forall (A : Type) (l : list A) k j x d, (k < length l)%nat -> nth j (upd_nth l k x) d = if (j =? k)%nat then x else nth j l d.
Proof.
  intros. rewrite nth_upd_nth. replace (k <? length l)%nat with true by (symmetry; apply Nat.ltb_lt; auto). auto.
Qed.
Lemma fd_clr_ok : forall w i, 0 <= i < cap w -> exists w', fd_clr w i = Ok w' /\ length w' = length w /\
  forall m, 0 <= m < cap w -> rg w' m = rg w m && negb (m =? i).
Proof.
  intros. unfold fd_clr, cap in *. replace (i <? 0) with false by lia. rewrite rdl_ok by lia. cbn [bind]. rewrite wrl_ok by lia. eexists. split; eauto.
  split. apply upd_nth_length. intros m Hm. unfold rg. rewrite nth_upd by lia.
  assert (0 <= m mod 32 < 32) by (apply Z.mod_pos_bound; lia). assert (0 <= i mod 32 < 32) by (apply Z.mod_pos_bound; lia).
  destruct (Nat.eqb_spec (Z.to_nat (m / 32)) (Z.to_nat (i / 32))).
  - rewrite Z.ldiff_spec, tb_pow by lia. replace (Z.to_nat (i / 32)) with (Z.to_nat (m / 32)) by lia. do 2 f_equal.
    assert (m / 32 = i / 32) by lia. rewrite (Z.div_mod m 32) at 2 by lia. rewrite (Z.div_mod i 32) at 2 by lia. lia.
  - replace (m =? i) with false. rewrite andb_true_r. auto. symmetry. apply Z.eqb_neq. intros ->. auto.
Qed.
Lemma fd_or_ok : forall w i d, 0 <= i < cap w -> exists w', fd_or w i (b2z d) = Ok w' /\ length w' = length w /\
  forall m, 0 <= m < cap w -> rg w' m = rg w m || ((m =? i) && d).
Proof.
  intros. unfold fd_or, cap in *. replace (i <? 0) with false by lia. rewrite rdl_ok by lia. cbn [bind].
  assert (0 <= i mod 32 < 32) by (apply Z.mod_pos_bound; lia). unfold shl_int. replace ((0 <=? i mod 32) && (i mod 32 <? 32)) with true by lia. cbn [bind].
  rewrite wrl_ok by lia. eexists. split; eauto.
  split. apply upd_nth_length. intros m Hm. unfold rg. rewrite nth_upd by lia.
  assert (0 <= m mod 32 < 32) by (apply Z.mod_pos_bound; lia).
  destruct (Nat.eqb_spec (Z.to_nat (m / 32)) (Z.to_nat (i / 32))).
  - rewrite Z.lor_spec. unfold u32. rewrite tb_mod by lia. rewrite tb_s32 by lia. rewrite shl_bit by lia. replace (Z.to_nat (i / 32)) with (Z.to_nat (m / 32)) by lia. do 2 f_equal.
    assert (m / 32 = i / 32) by lia. rewrite (Z.div_mod m 32) at 2 by lia. rewrite (Z.div_mod i 32) at 2 by lia. lia.
  - replace (m =? i) with false. cbn. rewrite orb_false_r. auto. symmetry. apply Z.eqb_neq. intros ->. auto.
Qed.
Lemma fd_set_ok : forall w i d, 0 <= i < cap w -> exists w1 w', fd_clr w i = Ok w1 /\ fd_or w1 i (b2z d) = Ok w' /\ length w' = length w /\
  forall m, 0 <= m < cap w -> rg w' m = if m =? i then d else rg w m.
Proof.
  intros w i d H. destruct (fd_clr_ok w i H) as (w1 & E1 & L1 & B1). assert (H1 : 0 <= i < cap w1) by (unfold cap in *; rewrite L1; auto).
  destruct (fd_or_ok w1 i d H1) as (w' & E2 & L2 & B2). exists w1, w'. split; auto. split; auto. split. congruence. intros m Hm.
  rewrite B2, B1 by (unfold cap in *; rewrite ?L1; auto). destruct (m =? i), (rg w m), d; auto.
Qed.
Lemma fd_shift_ok : forall w from nf, 0 <= from -> nf <= cap w -> exists w', fd_shift w from nf = Ok w' /\ length w' = length w /\
  forall m, 0 <= m < cap w -> rg w' m = sdown from nf (rg w) m.
Proof.
  intros w from nf Hf Hn. unfold fd_shift. destruct (Z_le_gt_dec from (nf - 1)).
  - destruct (foldM_up (list Z) (fun k w' => length w' = length w /\ forall m, 0 <= m < cap w -> rg w' m = if (from <=? m) && (m <? k) then rg w (m + 1) else rg w m)
      (fun w i => w <- fd_clr w i ;; d <- fd_get w (i + 1) ;; fd_or w i d) from (nf - 1) w) as (w' & E & L & B); auto.
    + split; auto. intros m Hm. replace ((from <=? m) && (m <? from)) with false by lia. auto.
    + intros k s Hk (L & B). assert (Hc : cap s = cap w) by (unfold cap; congruence).
      destruct (fd_clr_ok s k ltac:(lia)) as (w1 & E1 & L1 & B1). assert (Hc1 : cap w1 = cap w) by (unfold cap in *; congruence).
      rewrite E1. cbn [bind]. rewrite fd_get_ok by lia. cbn [bind]. destruct (fd_or_ok w1 k (rg w1 (k + 1)) ltac:(lia)) as (w2 & E2 & L2 & B2).
      exists w2. split; auto. split. congruence. intros m Hm. rewrite B2, B1, B1, B, B by lia. onz m k.
      * replace ((from <=? k + 1) && (k + 1 <? k)) with false by lia. replace (k + 1 =? k) with false by lia. replace ((from <=? k) && (k <? k + 1)) with true by lia.
        cbn. rewrite andb_false_r, andb_true_r. auto.
      * cbn. rewrite andb_true_r, orb_false_r. replace (m <? k + 1) with (m <? k) by lia. auto.
    + exists w'. repeat split; auto.
  - exists w. rewrite zrange_nil by lia. repeat split; auto. intros m Hm. unfold sdown. replace ((from <=? m) && (m <? nf - 1)) with false by lia. auto.
Qed.

(** ** Region boundaries held by a list and words *)
Definition rrep (l : list ptr) (w : list Z) (b : list (ptr * bool)) : Prop :=
  l = map fst b /\ Z.of_nat (length b) < cap w /\ forall m, (m < length b)%nat -> rg w (Z.of_nat m) = snd (nth m b (NULL, true)).
Lemma rrep_vw : forall l w b, rrep l w b -> vw l 0 (rg w) = b.
Proof. intros l w b (-> & H1 & H2). apply vw_b. intros. rewrite <- H2 by auto. f_equal. Qed.
Lemma vw_rrep : forall l w, ZL l < cap w -> rrep l w (vw l 0 (rg w)).
Proof.
  intros. split; [|split]. rewrite vw_fst; auto. rewrite vw_length. unfold ZL in *. lia. rewrite vw_length. intros m Hm. rewrite vw_nth by auto. reflexivity.
Qed.
Lemma rrep_len : forall l w b, rrep l w b -> ZL l = Z.of_nat (length b).
Proof. intros l w b (-> & _). unfold ZL. rewrite map_length. auto. Qed.
Lemma rrep_get : forall l w b m, rrep l w b -> (m < length b)%nat -> fd_get w (Z.of_nat m) = Ok (b2z (snd (nth m b (NULL, true)))).
Proof. intros l w b m (-> & H1 & H2) Hm. rewrite fd_get_ok by lia. rewrite H2 by auto. auto. Qed.
Lemma rrep_set : forall l w b1 x b2 e d, rrep l w (b1 ++ x :: b2) -> exists w1 w',
  fd_clr w (Z.of_nat (length b1)) = Ok w1 /\ fd_or w1 (Z.of_nat (length b1)) (b2z d) = Ok w' /\ length w' = length w /\
  rrep (replace_at (length b1) e l) w' (b1 ++ (e, d) :: b2).
Proof.
  intros l w b1 x b2 e d (-> & L & B). pose proof L as L'. rewrite app_length in L'. cbn [length] in L'.
  destruct (fd_set_ok w (Z.of_nat (length b1)) d) as (w1 & w' & E1 & E2 & LW & B2); [lia|].
  exists w1, w'. split; auto. split; auto. split; auto. split; [|split].
  - rewrite !map_app. cbn [map]. rewrite <- (map_length fst b1). apply replace_at_app.
  - unfold cap in *. rewrite LW, app_length. cbn [length]. lia.
  - intros m. rewrite app_length. cbn [length]. intros Hm. rewrite B2 by lia. specialize (B m). rewrite app_length in B. cbn [length] in B. specialize (B Hm). rewrite nth_mid in *.
    destruct (Z.eqb_spec (Z.of_nat m) (Z.of_nat (length b1))); destruct (Nat.eqb_spec m (length b1)); try lia; auto.
Qed.
Lemma rrep_del : forall l w b1 x b2, rrep l w (b1 ++ x :: b2) -> exists w',
  fd_shift w (Z.of_nat (length b1)) (Z.of_nat (length (b1 ++ x :: b2))) = Ok w' /\ length w' = length w /\ rrep (delete_at (length b1) l) w' (b1 ++ b2).
Proof.
  intros l w b1 x b2 (-> & L & B). rewrite app_length in *. cbn [length] in *.
  destruct (fd_shift_ok w (Z.of_nat (length b1)) (Z.of_nat (length b1 + S (length b2)))) as (w1 & E1 & LW & B1); [lia|lia|].
  exists w1. repeat (split; [assumption|]). split; [|split].
  - rewrite !map_app. cbn [map]. rewrite <- (map_length fst b1). apply delete_at_app.
  - unfold cap in *. rewrite app_length. lia.
  - intros m. rewrite app_length. intros Hm. rewrite B1 by lia. unfold sdown. rewrite nth_app_if.
    destruct (Nat.ltb_spec m (length b1)).
    + replace ((Z.of_nat (length b1) <=? Z.of_nat m) && _) with false by lia. rewrite B by lia. rewrite app_nth1 by lia. auto.
    + replace ((Z.of_nat (length b1) <=? Z.of_nat m) && _) with true by lia. replace (Z.of_nat m + 1) with (Z.of_nat (S m)) by lia.
      rewrite B by lia. rewrite app_nth2 by lia. replace (S m - length b1)%nat with (S (m - length b1)) by lia. auto.
Qed.

(** ** Sides of faces *)
Definition slot (z : frec) (d : bool) : ptr := if d then f_r0 z else f_r1 z.
Definition fpart (z : frec) := (f_live z, f_edirs z, f_edges z).
(** Other regions keep their sides; [r] is on the sides given by [B]. *)
Definition side (t s : topo) (r : ptr) (B : ptr -> bool -> Prop) : Prop := forall f,
  match tfs t f, tfs s f with
  | None, None => True
  | Some z, Some z' => fpart z' = fpart z /\
      (forall d q, q <> NULL -> q <> r -> (slot z' d = q <-> slot z d = q)) /\ (forall d, slot z' d = r <-> B f d)
  | _, _ => False
  end.
Definition fsame (t s : topo) := tvs s = tvs t /\ tes s = tes t /\ trs s = trs t /\ tnext s = tnext t.
Lemma fsame_refl : forall t, fsame t t.
Proof. intros. repeat split. Qed.
Lemma fsame_trans : forall t s u, fsame t s -> fsame s u -> fsame t u.
Proof. intros t s u (A & B & C & D) (A' & B' & C' & D'). unfold fsame. rewrite A', B', C', D'. auto. Qed.
Lemma side_ext : forall t s r B B', side t s r B -> (forall f d, B f d <-> B' f d) -> side t s r B'.
Proof.
  intros t s r B B' H HB f. specialize (H f). destruct (tfs t f), (tfs s f); auto. destruct H as (H1 & H2 & H3). repeat split; auto; try apply H2; auto; rewrite <- HB, <- H3; auto.
Qed.
Lemma side_tfs : forall t s s' r B, tfs s' = tfs s -> side t s r B -> side t s' r B.
Proof. intros t s s' r B E H f. rewrite E. apply H. Qed.
Lemma side_refl : forall t a r, inv t a -> r <> NULL -> side t t r (fun f d => has_face a r f d).
Proof.
  intros t a r I Hr f. destruct (tfs t f) as [z|] eqn:E; auto. repeat split; auto; try tauto; destruct (i_uf _ _ I _ _ E r Hr) as [A B]; destruct d; unfold slot; tauto.
Qed.
Lemma side_some : forall t s r B f, side t s r B -> tfs t f <> None -> tfs s f <> None.
Proof. intros t s r B f H. specialize (H f). destruct (tfs t f), (tfs s f); intros; try tauto; congruence. Qed.

Lemma add_region_ok : forall t s r B f d z, side t s r B -> tfs t f = Some z -> r <> NULL -> (slot z d = NULL \/ slot z d = r) ->
  exists s', MF_Add_Region s f r (lnot (b2z d)) = Ok s' /\ fsame s s' /\ side t s' r (fun f' d' => B f' d' \/ (f' = f /\ d' = d)).
Proof.
  intros t s r B f d z SD Hz Hr Hs. pose proof (SD f) as SF. rewrite Hz in SF. destruct (tfs s f) as [z'|] eqn:E; [|tauto]. destruct SF as (F1 & F2 & F3).
  unfold MF_Add_Region, getf. rewrite E. cbn [bind]. replace (lnot (b2z d) =? -1) with false by (destruct d; auto). cbn [bind].
  exists (putf s f (Some (if d then set_fregs z' r (f_r1 z') else set_fregs z' (f_r0 z') r))). split. destruct d; auto. split. repeat split.
  intros g. specialize (SD g). ra. unfold zupd. onz g f.
  - rewrite Hz. split; [|split].
    + destruct d; auto.
    + intros d' q Hq Hqr. pose proof (F2 d' q Hq Hqr) as FF. destruct d, d'; cbn [slot set_fregs f_r0 f_r1] in *; try exact FF; split; intros; exfalso; destruct Hs; congruence.
    + intros d'. pose proof (F3 d') as FF. destruct d, d'; cbn [slot set_fregs f_r0 f_r1] in *; try (rewrite FF; intuition congruence); split; auto.
  - destruct (tfs t g), (tfs s g); auto. destruct SD as (S1 & S2 & S3). split; auto. split; auto. intros d'. rewrite S3. tauto.
Qed.
Lemma rem_region_ok : forall t s r B f z, side t s r B -> tfs t f = Some z -> r <> NULL -> ~ (B f true /\ B f false) ->
  exists s', MF_Rem_Region s f r = Ok s' /\ fsame s s' /\ side t s' r (fun f' d' => B f' d' /\ f' <> f).
Proof.
  intros t s r B f z SD Hz Hr Hs. pose proof (SD f) as SF. rewrite Hz in SF. destruct (tfs s f) as [z'|] eqn:E; [|tauto]. destruct SF as (F1 & F2 & F3).
  unfold MF_Rem_Region, getf. rewrite E. cbn [bind]. pose proof (F3 true) as T. pose proof (F3 false) as F. cbn [slot] in T, F.
  assert (Oth : forall g, g <> f -> match tfs t g, tfs s g with None, None => True | Some z, Some z' => fpart z' = fpart z /\
      (forall d q, q <> NULL -> q <> r -> (slot z' d = q <-> slot z d = q)) /\ (forall d, slot z' d = r <-> B g d /\ g <> f) | _, _ => False end).
  { intros g Hg. specialize (SD g). destruct (tfs t g), (tfs s g); auto. destruct SD as (S1 & S2 & S3). split; auto. split; auto. intros d'. rewrite S3. tauto. }
  destruct (Z.eqb_spec (f_r0 z') r) as [E0|E0]; [|destruct (Z.eqb_spec (f_r1 z') r) as [E1|E1]].
  - eexists. split; eauto. split. repeat split. intros g. ra. unfold zupd. onz g f; [|apply Oth; auto]. rewrite Hz. split; [auto|split].
    + intros d q Hq Hqr. specialize (F2 d q Hq Hqr). destruct d; cbn [slot set_fregs f_r0 f_r1] in *; auto. split; intros; [congruence|]. apply F2 in H. congruence.
    + intros d. destruct d; cbn [slot set_fregs f_r0 f_r1] in *. intuition congruence. tauto.
  - eexists. split; eauto. split. repeat split. intros g. ra. unfold zupd. onz g f; [|apply Oth; auto]. rewrite Hz. split; [auto|split].
    + intros d q Hq Hqr. specialize (F2 d q Hq Hqr). destruct d; cbn [slot set_fregs f_r0 f_r1] in *; auto. split; intros; [congruence|]. apply F2 in H. congruence.
    + intros d. destruct d; cbn [slot set_fregs f_r0 f_r1] in *. tauto. intuition congruence.
  - exists s. split; auto. split. repeat split. intros g. destruct (Z.eq_dec g f) as [->|Ng]; [|apply Oth; auto]. rewrite Hz, E. split; [auto|split; auto].
    intros d. destruct d; cbn [slot]; tauto.
Qed.

Lemma wfa_r : forall a r o, wfa a -> a_r a r <> None ->
  (forall b, o = Some (true, Some b) -> Forall (fun x => full_f a (fst x)) b) ->
  (forall l b, o = Some (l, Some b) -> NoDup (map fst b) /\ (length b <= maxrf)%nat) ->
  wfa (with_r a (upd (a_r a) r o)).
Proof.
  intros a r o W He Hl Hn. pose proof W as [W1 W2 W3 W4 W5 W6 W7 W8 W9 W10]. constructor; ra; auto.
  - intros p. unfold upd. onz p r; auto.
  - intros p b. unfold upd. onz p r. apply Hl. apply W8.
  - intros p l b. unfold upd. onz p r. apply Hn. apply W10.
Qed.
Lemma fpart_view : forall z z', fpart z' = fpart z -> fview z' = fview z.
Proof. intros z z' H. unfold fpart in H. inversion H as [[E1 E2 E3]]. unfold fview. rewrite E1, E2, E3. auto. Qed.

Lemma inv_r : forall t t' a r o B, inv t a -> r <> NULL -> trs t r <> None ->
  (forall x l, o = Some x -> r_faces x = Some l -> (length l < 32 * length (r_fdirs x))%nat) ->
  tvs t' = tvs t -> tes t' = tes t -> (forall p, trs t' p = zupd (trs t) r o p) -> tnext t' = tnext t -> side t t' r B ->
  let a' := with_r a (upd (a_r a) r (option_map rview o)) in
  wfa a' -> (forall f d, B f d <-> has_face a' r f d) -> inv t' a'.
Proof.
  intros t t' a r o B I Hr Hx Hs Ev Ee Er En SD a' W HU. pose proof I as [I1 I2 I3 I4 I5 I6 I7 I8 I9 I10]. unfold a' in *. constructor; ra; auto.
  - rewrite Ev. auto.
  - rewrite Ee. auto.
  - intros p. rewrite <- I3. specialize (SD p). destruct (tfs t p), (tfs t' p); try tauto. destruct SD as [R _]. cbn. f_equal. apply fpart_view. auto.
  - intros p. rewrite Er. unfold zupd, upd. onz p r; auto.
  - rewrite En. auto.
  - intros v z. rewrite Ev. apply I6.
  - intros v z. rewrite Ee. apply I7.
  - intros f z' Hz' q Hq. specialize (SD f). rewrite Hz' in SD. destruct (tfs t f) as [z|] eqn:Ez; [|tauto]. destruct SD as (S1 & S2 & S3).
    onz q r.
    + rewrite <- !HU, <- !S3. cbn [slot]. tauto.
    + destruct (I8 _ _ Ez q Hq) as [A C]. pose proof (S2 true q Hq n) as T. pose proof (S2 false q Hq n) as F. cbn [slot] in T, F. rewrite T, F, A, C.
      unfold has_face. ra. rewrite upd_other by auto. tauto.
  - intros q x l. rewrite Er. unfold zupd. onz q r; [|apply I10]. intros ->. apply Hs. auto.
Qed.

Lemma r_nonnull : forall t a r, inv t a -> a_r a r <> None -> r <> NULL.
Proof. intros t a r I H. assert (1 <= r < a_next a) by (apply (w_r _ (i_w _ _ I)); auto). unfold NULL. lia. Qed.
Lemma full_some : forall t a f, inv t a -> full_f a f -> exists z, tfs t f = Some z.
Proof. intros t a e I [z Hz]. rewrite <- (i_f _ _ I) in Hz. destruct (tfs t e); [eauto|discriminate]. Qed.
Lemma slot_has : forall t a f z d q, inv t a -> tfs t f = Some z -> q <> NULL -> (slot z d = q <-> has_face a q f d).
Proof. intros t a f z d q I H Hq. destruct (i_uf _ _ I _ _ H q Hq). destruct d; auto. Qed.
Lemma slot_free : forall t a r f d z, inv t a -> tfs t f = Some z -> (forall q, has_face a q f d -> q = r) -> slot z d = NULL \/ slot z d = r.
Proof. intros t a r f d z I H HF. destruct (Z.eq_dec (slot z d) NULL); auto. right. apply HF. apply (slot_has _ _ _ _ _ _ I H n). auto. Qed.
Lemma inv_rfull : forall t a r l0 b, inv t a -> a_r a r = Some (l0, Some b) ->
  exists x l, trs t r = Some x /\ r_live x = l0 /\ r_faces x = Some l /\ rrep l (r_fdirs x) b /\ NoDup (map fst b) /\ (length b <= 512)%nat.
Proof.
  intros t a r l0 b I H. destruct (get_r t a r I ltac:(congruence)) as (x & Ex & Ax). rewrite H in Ax. unfold rview in Ax.
  destruct (r_faces x) as [l|] eqn:El; cbn in Ax; [|congruence]. inversion Ax as [[E1 E2]]. exists x, l. destruct (w_rnd _ (i_w _ _ I) _ _ _ H) as [N L].
  split; auto. split; auto. split; auto. split; [|split; [congruence|unfold maxrf in L; congruence]].
  apply vw_rrep. pose proof (i_s _ _ I _ _ _ Ex El). unfold ZL, cap. lia.
Qed.
Lemma full_in : forall a (b : list (ptr * bool)) e, Forall (fun x => full_f a (fst x)) b -> In e (map fst b) -> full_f a e.
Proof. intros a b e H HI. rewrite Forall_forall in H. apply in_map_iff in HI. destruct HI as (x & <- & Hx). auto. Qed.

(** The boundary of a live region replaced by [b']. *)
Lemma inv_rb : forall t t' a r x' b b' B, inv t a -> a_r a r = Some (true, b) ->
  r_live x' = true -> (exists l, r_faces x' = Some l /\ rrep l (r_fdirs x') b') ->
  tvs t' = tvs t -> tes t' = tes t -> (forall p, trs t' p = zupd (trs t) r (Some x') p) -> tnext t' = tnext t -> side t t' r B ->
  Forall (fun x => full_f a (fst x)) b' -> NoDup (map fst b') -> (length b' <= maxrf)%nat ->
  (forall f d, B f d <-> In (f, d) b') ->
  inv t' (set_rb a r b').
Proof.
  intros t t' a r x' b b' B I Hr Lx (l & El & R) H1 H2 H3 H4 SD L N Le HU. unfold set_rb. rewrite Hr.
  assert (Ev : rview x' = (true, Some b')). { unfold rview. rewrite Lx, El. cbn. do 2 f_equal. apply rrep_vw. auto. }
  replace (Some (true, Some b')) with (option_map rview (Some x')) by (cbn; congruence).
  assert (Ex : trs t r <> None). { rewrite <- (i_r _ _ I) in Hr. destruct (trs t r); discriminate. }
  eapply inv_r; eauto.
  - eapply r_nonnull; eauto. congruence.
  - intros y l' Hy Hl'. inversion Hy; subst y. rewrite El in Hl'. inversion Hl'; subst l'. destruct R as (-> & R & _). rewrite map_length. unfold cap in R. lia.
  - apply wfa_r; auto. apply (i_w _ _ I). congruence.
    + cbn. rewrite Ev. intros c Hc. inversion Hc; subst. auto.
    + cbn. rewrite Ev. intros l' c Hc. inversion Hc; subst. auto.
  - intros f d. rewrite HU. unfold has_face. ra. rewrite upd_same. cbn. rewrite Ev. split; eauto. intros (c & Hc & HI). inversion Hc; subst. auto.
Qed.

Lemma mapM_some : forall A B (f : A -> result B) l, (forall x, In x l -> exists y, f x = Ok y) -> exists r, mapM f l = Ok r.
Proof.
  intros A B f l. induction l as [|x l IH]; intros H; cbn [mapM]; eauto. destruct (H x) as [y ->]; cbn; auto. destruct IH as [r ->]. intros; apply H; cbn; auto. cbn. eauto.
Qed.
Lemma upd_type_ok : forall t r x l, trs t r = Some x -> r_faces x = Some l -> (forall f, In f l -> exists z, tfs t f = Some z /\ f_edges z <> None) ->
  exists ty, MR_Update_ElementType t r = Ok (putr t r (Some (set_rtype x ty))).
Proof.
  intros t r x l Hx Hl HF. unfold MR_Update_ElementType, getr. rewrite Hx. cbn [bind]. rewrite Hl. cbn [nn bind].
  destruct (mapM_some _ _ (MF_Num_Edges t) l) as [ns Ens].
  { intros f Hf. destruct (HF f Hf) as (z & Hz & Hn). unfold MF_Num_Edges, getf. rewrite Hz. cbn [bind]. destruct (f_edges z); [|congruence]. cbn. eauto. }
  rewrite Ens. cbn [bind]. destruct (length l) as [|[|[|[|[|[|[|n]]]]]]]; cbn [bind]; eauto.
Qed.

(** Faces of a boundary keep their edge lists while sides are edited. *)
Lemma side_edges : forall t s a r B f, inv t a -> side t s r B -> full_f a f -> exists z, tfs s f = Some z /\ f_edges z <> None.
Proof.
  intros t s a r B f I SD [b Hb]. rewrite <- (i_f _ _ I) in Hb. specialize (SD f). destruct (tfs t f) as [z|]; [|discriminate]. destruct (tfs s f) as [z'|]; [|tauto].
  exists z'. split; auto. destruct SD as (E & _). unfold fpart in E. inversion E as [[E1 E2 E3]]. rewrite E3. cbn in Hb. unfold fview in Hb. destruct (f_edges z); discriminate.
Qed.
Lemma slot_one : forall (b : list (ptr * bool)) f, NoDup (map fst b) -> ~ (In (f, true) b /\ In (f, false) b).
Proof.
  induction b as [|[g d] b IH]; intros f N [A B]; cbn in *; auto. inversion N; subst. destruct A as [A|A], B as [B|B]; try (inversion A; subst); try (inversion B; subst).
  - apply H1. apply (in_map fst) in B. auto.
  - apply H1. apply (in_map fst) in A. auto.
  - apply (IH f); auto.
Qed.
Lemma has_face_eq : forall a r b, a_r a r = Some (true, Some b) -> forall f d, has_face a r f d <-> In (f, d) b.
Proof. intros a r b H f d. unfold has_face. rewrite H. split; eauto. intros (c & E & HI). inversion E; subst. auto. Qed.
Lemma In_mid : forall (b1 b2 : list (ptr * bool)) x f d, NoDup (map fst (b1 ++ x :: b2)) -> (In (f, d) (b1 ++ b2) <-> In (f, d) (b1 ++ x :: b2) /\ f <> fst x).
Proof.
  intros b1 b2 x f d N. rewrite map_app in N. cbn [map] in N. apply NoDup_remove_2 in N. rewrite !in_app_iff in *. cbn. split.
  - intros H. split; [tauto|]. intros ->. apply N. destruct H as [H|H]; apply (in_map fst) in H; auto.
  - intros [[H|[H|H]] Hn]; auto. subst. cbn in Hn. congruence.
Qed.
Lemma NoDup_mid : forall (b1 b2 : list (ptr * bool)) x, NoDup (map fst (b1 ++ x :: b2)) -> NoDup (map fst (b1 ++ b2)).
Proof. intros b1 b2 x. rewrite !map_app. apply NoDup_remove_1. Qed.
Lemma index_vw : forall (b : list (ptr * bool)) f k, index_of f (map fst b) = Some k -> exists b1 d b2, b = b1 ++ (f, d) :: b2 /\ length b1 = k /\ ~ In f (map fst b1).
Proof.
  induction b as [|[g d] b IH]; intros f k H; cbn in H; [discriminate|]. destruct (Z.eqb_spec g f).
  - inversion H; subst. exists [], d, b. auto.
  - destruct (index_of f (map fst b)) eqn:E; [|discriminate]. inversion H; subst. destruct (IH _ _ E) as (b1 & d' & b2 & E1 & E2 & E3).
    exists ((g, d) :: b1), d', b2. subst. cbn. repeat split; auto. intros [|]; auto.
Qed.
Lemma drop_none : forall f b, ~ In f (map fst b) -> drop f b = b.
Proof. intros f b. unfold drop. induction b as [|[g d] b IH]; cbn; intros H; auto. replace (g =? f) with false by lia. cbn. rewrite IH; tauto. Qed.
Lemma drop_mid : forall b1 f d b2, NoDup (map fst (b1 ++ (f, d) :: b2)) -> drop f (b1 ++ (f, d) :: b2) = b1 ++ b2.
Proof.
  intros b1 f d b2 N. unfold drop. rewrite filter_app. cbn. rewrite Z.eqb_refl. cbn. rewrite map_app in N. cbn in N. apply NoDup_remove_2 in N. rewrite in_app_iff in N.
  f_equal; apply drop_none; tauto.
Qed.
Lemma aeq_set_rb : forall a r b, a_r a r = Some (true, Some b) -> aeq a (set_rb a r b).
Proof. intros a r b H. unfold set_rb, aeq. ra. repeat split; auto. intros p. unfold upd. onz p r; auto. rewrite H. auto. Qed.

Lemma step_set_faces : forall t a r b, inv t a -> tpre a (TSetFaces r b) ->
  exists t', tstep t (TSetFaces r b) = Ok t' /\ inv t' (astep a (TSetFaces r b)).
Proof.
  intros t a r b I (Hf & N & L & HL & HS). unfold maxrf in L. pose proof (i_w _ _ I) as W.
  assert (HF : exists y, a_r a r = Some (true, y) /\ forall f d, ~ has_face a r f d).
  { destruct Hf as [Hf|Hf]; eexists; split; eauto; intros e d (c & Hc & HI); rewrite Hf in Hc; inversion Hc; subst. auto. }
  destruct HF as (y & Hy & Hn). destruct (get_r t a r I ltac:(congruence)) as (x & Ex & Ax).
  assert (Nr : r <> NULL) by (eapply r_nonnull; eauto; congruence).
  assert (Lx : r_live x = true). { rewrite Hy in Ax. unfold rview in Ax. congruence. }
  cbn [tstep astep]. unfold MR_Set_Faces, getr. rewrite Ex. cbn [bind]. replace (Z.of_nat (length b) <? 0) with false by lia.
  set (nw := Z.to_nat (1 + Z.of_nat (length b) / 32)).
  destruct (foldM_up topo (fun k s => exists w, tvs s = tvs t /\ tes s = tes t /\ tnext s = tnext t /\
     (forall p, trs s p = zupd (trs t) r (Some (set_rfaces x w (map fst (firstn (Z.to_nat k) b)))) p) /\ length w = nw /\
     (forall m, (m < length b)%nat -> rg w (Z.of_nat m) = if Z.of_nat m <? k then snd (nth m b (NULL, true)) else false) /\
     side t s r (fun f d => In (f, d) (firstn (Z.to_nat k) b)))
    (fun t i => x <- match trs t r with Some x => Ok x | None => Undef end ;; d <- rdl (dirz b) i ;; f <- rdl (map fst b) i ;;
       w <- fd_or (r_fdirs x) i d ;; l <- nn (r_faces x) ;; MF_Add_Region (putr t r (Some (set_rfaces x w (l ++ [f])))) f r (lnot d))
    0 (Z.of_nat (length b)) (putr t r (Some (set_rfaces x (repeat 0 nw) [])))) as (t' & Et & w & A1 & A2 & A3 & A4 & A5 & A6 & A7).
  - lia.
  - exists (repeat 0 nw). repeat split; auto.
    + apply repeat_length.
    + intros m Hm. replace (Z.of_nat m <? 0) with false by lia. unfold rg. rewrite nth_repeat. apply Z.testbit_0_l.
    + eapply side_ext. eapply side_tfs; [|apply (side_refl t a r I Nr)]. auto. intros f d. split; intros HH; exfalso; [eapply Hn; eauto|exact HH].
  - intros k s Hk (w & A1 & A2 & A3 & A4 & A5 & A6 & A7). rewrite A4. rewrite zupd_same. cbn [bind set_rfaces r_fdirs r_faces nn].
    unfold dirz. rewrite !rdl_ok by (rewrite map_length; lia). cbn [bind].
    set (q := nth (Z.to_nat k) b (NULL, true)).
    rewrite (nth_indep _ 0 (b2z (snd (NULL, true)))) by (rewrite map_length; lia). rewrite (map_nth (fun x => b2z (snd x))). fold q.
    rewrite (nth_indep _ 0 (fst (NULL, true))) by (rewrite map_length; lia). rewrite (map_nth fst). fold q.
    assert (Hc : Z.of_nat (length b) < cap w). { unfold cap. rewrite A5. unfold nw. pose proof (Z.div_mod (Z.of_nat (length b)) 32). pose proof (Z.mod_pos_bound (Z.of_nat (length b)) 32). lia. }
    destruct (fd_or_ok w k (snd q) ltac:(lia)) as (w' & Ew & Lw & Bw). rewrite Ew. cbn [bind].
    assert (Hq : In q b) by (apply nth_In; lia).
    destruct (full_some t a (fst q) I) as [z Hz]. { rewrite Forall_forall in HL. apply HL. auto. }
    match goal with |- exists s', MF_Add_Region ?T _ _ _ = _ /\ _ => destruct (add_region_ok t T r (fun f d => In (f, d) (firstn (Z.to_nat k) b)) (fst q) (snd q) z) as (s' & E1 & (S1 & S2 & S3 & S4) & R); auto end.
    { eapply slot_free; eauto. intros q' Hq'. eapply HS; eauto. destruct q; auto. }
    exists s'. split; auto. exists w'.
    assert (EF : firstn (Z.to_nat (k + 1)) b = firstn (Z.to_nat k) b ++ [q]).
    { replace (Z.to_nat (k + 1)) with (S (Z.to_nat k)) by lia. unfold q. apply firstn_S_nth. lia. }
    rewrite EF, map_app. cbn [map]. split; [|split; [|split; [|split; [|split; [|split]]]]].
    + rewrite S1. auto.
    + rewrite S2. auto.
    + rewrite S4. auto.
    + intros p. rewrite S3. ra. unfold zupd in *. rewrite A4. destruct (p =? r); auto.
    + congruence.
    + intros m Hm. rewrite Bw by lia. rewrite A6 by lia. destruct (Z.eqb_spec (Z.of_nat m) k).
      * replace (Z.of_nat m <? k) with false by lia. replace (Z.of_nat m <? k + 1) with true by lia. cbn. unfold q. do 2 f_equal. lia.
      * cbn. rewrite orb_false_r. replace (Z.of_nat m <? k + 1) with (Z.of_nat m <? k) by lia. auto.
    + eapply side_ext; eauto. intros f d. cbn. rewrite in_app_iff. cbn [In]. destruct q as [q1 q2]; cbn [fst snd]. split; intros [HH|HH]; auto. destruct HH as [-> ->]; auto. destruct HH as [HH|[]]; inversion HH; auto.
  - unfold getr in Et. rewrite Et. cbn [bind]. rewrite Nat2Z.id, firstn_all in *.
    destruct (upd_type_ok t' r (set_rfaces x w (map fst b)) (map fst b)) as (ty & Ety).
    + rewrite A4, zupd_same. auto.
    + auto.
    + intros f Hf'. eapply side_edges; eauto. eapply full_in; eauto.
    + rewrite Ety. eexists. split; eauto.
      eapply inv_rb with (x' := set_rtype (set_rfaces x w (map fst b)) ty); ra; eauto.
      * exists (map fst b). split; auto. split; auto. split.
        -- cbn. unfold cap. rewrite A5. unfold nw. pose proof (Z.div_mod (Z.of_nat (length b)) 32). pose proof (Z.mod_pos_bound (Z.of_nat (length b)) 32). lia.
        -- intros m Hm. cbn. rewrite A6 by lia. replace (Z.of_nat m <? Z.of_nat (length b)) with true by lia. auto.
      * intros p. unfold zupd in *. rewrite A4. destruct (p =? r); auto.
      * cbn. tauto.
Qed.

Lemma step_rem_face : forall t a r f, inv t a -> tpre a (TRemFace r f) ->
  exists t', tstep t (TRemFace r f) = Ok t' /\ inv t' (astep a (TRemFace r f)).
Proof.
  intros t a r f I (b & Hb). destruct (inv_rfull _ _ _ _ _ I Hb) as (x & l & Ex & Lx & El & R & N & L). pose proof (i_w _ _ I) as W.
  assert (Nr : r <> NULL) by (eapply r_nonnull; eauto; congruence).
  cbn [tstep astep]. unfold MR_Rem_Face, getr. rewrite Ex. cbn [bind]. rewrite El. cbn [nn bind].
  assert (Efb : rbdry a r = b) by (unfold rbdry; rewrite Hb; auto). rewrite Efb. clear Efb.
  pose proof R as (El' & _). replace (index_of f l) with (index_of f (map fst b)) by congruence. destruct (index_of f (map fst b)) as [k|] eqn:Ek.
  - destruct (index_vw _ _ _ Ek) as (b1 & d & b2 & E & Hk & Nk). subst b k.
    destruct (rrep_del _ _ _ _ _ R) as (w & Ew & Lw & R'). rewrite (rrep_len _ _ _ R). rewrite Ew. cbn [bind].
    destruct (full_some t a f I) as [z Hz]. { eapply full_in. apply (w_rf _ W _ _ Hb). rewrite map_app, in_app_iff. cbn. auto. }
    match goal with |- context [MF_Rem_Region ?T _ _] => destruct (rem_region_ok t T r (has_face a r) f z) as (s' & E1 & (S1 & S2 & S3 & S4) & SD); auto end.
    { apply (side_refl t a r I Nr). }
    { rewrite !(has_face_eq _ _ _ Hb). apply slot_one. auto. }
    rewrite E1. exists s'. split; auto. rewrite drop_mid by auto.
    eapply inv_rb with (x' := set_rfaces x w (delete_at (length b1) l)); eauto.
    + eexists. split; [reflexivity|]. exact R'.
    + intros p. rewrite S3. auto.
    + pose proof (w_rf _ W _ _ Hb) as HF. rewrite Forall_forall in *. intros q Hq. apply HF. rewrite in_app_iff in *. cbn. tauto.
    + apply NoDup_mid in N. auto.
    + unfold maxrf. rewrite app_length in *. cbn [length] in *. lia.
    + intros g d'. cbn beta. rewrite (has_face_eq _ _ _ Hb). rewrite (In_mid b1 b2 (f, d)) by auto. cbn. tauto.
  - exists t. split; auto. rewrite drop_none by (apply index_of_none; auto). eapply inv_ext; [|eauto]. apply aeq_set_rb. auto.
Qed.

Lemma step_replace_face : forall t a r i n, inv t a -> tpre a (TReplaceFace r i n) ->
  exists t', tstep t (TReplaceFace r i n) = Ok t' /\ inv t' (astep a (TReplaceFace r i n)).
Proof.
  intros t a r i n I ((b & Hb) & Hi & N' & HF & HS). destruct (inv_rfull _ _ _ _ _ I Hb) as (x & l & Ex & Lx & El & R & N & L). pose proof (i_w _ _ I) as W.
  assert (Nr : r <> NULL) by (eapply r_nonnull; eauto; congruence).
  assert (Efb : rbdry a r = b) by (unfold rbdry; rewrite Hb; auto). rewrite Efb in *.
  cbn [tstep astep]. unfold MR_Replace_Face_i, getr. rewrite Ex. cbn [bind]. rewrite El. cbn [nn bind]. rewrite Efb. clear Efb.
  destruct (split3 _ b i 1 ltac:(lia)) as (b1 & r1 & b2 & Eb & L1 & L2). destruct r1 as [|q [|]]; try discriminate. cbn [app] in Eb.
  assert (EB : firstn i b ++ n :: skipn (S i) b = b1 ++ n :: b2).
  { subst b i. rewrite firstn_app1. do 2 f_equal. change (b1 ++ q :: b2) with (b1 ++ [q] ++ b2). rewrite app_assoc. replace (S (length b1)) with (length (b1 ++ [q])) by (rewrite app_length; cbn; lia). apply skipn_app1. }
  rewrite EB in *. subst b i.
  unfold lent. replace (Z.of_nat (length b1) <? 0) with false by lia. cbn [bind]. rewrite Nat2Z.id.
  assert (En : nth (length b1) l NULL = fst q). { pose proof R as (-> & _). rewrite map_app. cbn [map]. rewrite app_nth2; rewrite map_length; [|lia]. rewrite Nat.sub_diag. auto. }
  rewrite En. destruct n as [nf nd]. cbn [fst snd] in *.
  destruct (rrep_set _ _ _ _ _ nf nd R) as (w1 & w & E1 & E2 & Lw & R'). rewrite E1. cbn [bind]. rewrite E2. cbn [bind].
  replace (ZL l <=? Z.of_nat (length b1)) with false by (rewrite (rrep_len _ _ _ R); lia).
  destruct (full_some t a (fst q) I) as [z Hz]. { eapply full_in. apply (w_rf _ W _ _ Hb). rewrite map_app, in_app_iff. cbn. auto. }
  destruct (full_some t a nf I HF) as [z' Hz'].
  match goal with |- context [MF_Rem_Region ?T _ _] => destruct (rem_region_ok t T r (has_face a r) (fst q) z) as (s1 & E3 & S1 & SD); auto end.
  { apply (side_refl t a r I Nr). }
  { rewrite !(has_face_eq _ _ _ Hb). apply slot_one. auto. }
  rewrite E3. cbn [bind].
  destruct (add_region_ok t s1 r _ nf nd z' SD Hz' Nr) as (s2 & E4 & S2 & SD2). { eapply slot_free; eauto. intros q' Hq'. eapply HS; eauto. cbn; auto. }
  rewrite E4. cbn [bind]. destruct (fsame_trans _ _ _ S1 S2) as (T1 & T2 & T3 & T4).
  assert (FF : Forall (fun x => full_f a (fst x)) (b1 ++ (nf, nd) :: b2)).
  { pose proof (w_rf _ W _ _ Hb) as HFF. rewrite Forall_forall in *. intros p Hp. rewrite in_app_iff in Hp. destruct Hp as [Hp|[<-|Hp]]; auto; apply HFF; rewrite in_app_iff; cbn; auto. }
  destruct (upd_type_ok s2 r (set_rfaces x w (replace_at (length b1) nf l)) (replace_at (length b1) nf l)) as (ty & Ety).
  + rewrite T3. ra. rewrite zupd_same. auto.
  + auto.
  + intros f Hf'. pose proof R' as (EL & _). rewrite EL in Hf'. eapply side_edges; eauto. eapply full_in; eauto.
  + rewrite Ety. eexists. split; eauto.
    eapply inv_rb with (x' := set_rtype (set_rfaces x w (replace_at (length b1) nf l)) ty); ra; eauto.
    * eexists. split; [reflexivity|]. exact R'.
    * rewrite T3. ra. intros p. unfold zupd. destruct (p =? r); auto.
    * unfold maxrf. rewrite app_length in *. cbn [length] in *. lia.
    * intros g d'. cbn beta. rewrite (has_face_eq _ _ _ Hb). rewrite <- (In_mid b1 b2 q) by auto. rewrite !in_app_iff. cbn [In]. split; [intros [[HH|HH]|[-> ->]]|intros [HH|[HH|HH]]]; auto. inversion HH; auto.
Qed.
