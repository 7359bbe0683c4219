(** Receiving the edges, faces and regions of a mesh. *)
From Coq Require Import ZArith Bool Ascii String Floats.SpecFloat List Lia Arith ZifyBool ZifyNat.
From Verif Require Import Base BaseProofs ListSpec AttModel AttProps TopoModel TopoSpec TopoProofs TopoProofs2 TopoProofs3 TopoProofs5 TopoProps ParModel SortModel BuildProofs3 FileModel FileSpec FileProofs FileProofs2 FileProofs3 FileProofs4 SendModel SendSpec SendProofs SendProofs2.
Import ListNotations.
Open Scope Z_scope.

Lemma flat_le : forall A B (h : A -> list B) n l, (forall x, In x l -> (length (h x) <= n)%nat) -> (length (flat_map h l) <= n * length l)%nat.
Proof. induction l as [|x l IH]; intros H; cbn [flat_map length]; [lia|]. rewrite app_length. pose proof (H x (or_introl eq_refl)). pose proof (IH (fun y Hy => H y (or_intror Hy))). lia. Qed.

Section Receive3.
Variables (s : smesh) (a : amesh) (w : bool).
Hypothesis P : outgoing s a w.
Notation K := (skind s).
Notation ph := (phi (m0 s)).
Notation mb := (mapb (m0 s)).
Notation rcv := (rcv s a).
Notation ri := (ri s).
Notation rt := (rt s a).

Lemma rda_dn : forall d0 dn z rest, K d0 = dn ++ z :: rest -> rda (map (ph d0) (K d0)) (Z.of_nat (length dn)) = Ok (ph d0 z).
Proof using. intros d0 dn z rest ->. rewrite map_app. cbn [map]. rewrite <- (map_length (ph d0) dn). apply rda_app. Qed.
Lemma rda_pos : forall d0 p, In p (K d0) -> rda (map (ph d0) (K d0)) (pos (K d0) p - 1) = Ok (ph d0 p).
Proof using.
  intros d0 p H. destruct (pos_in _ _ H) as (l1 & l2 & E & N & ->). unfold ZL. rewrite Z.add_simpl_r. eapply rda_dn; eauto.
Qed.
Lemma from_id_ph : forall m' p, In p (K 0) -> (forall p, In p (K 0) -> fm_id m' (ph 0 p) = pos (K 0) p) -> from_id m' (map (ph 0) (K 0)) (pos (K 0) p) = ph 0 p.
Proof using.
  intros m' p H E. pose proof (pos_range _ _ H) as R. unfold from_id. assert ((pos (K 0) p <? 1) || (ZL (map (ph 0) (K 0)) <? pos (K 0) p) = false) as -> by (unfold ZL in *; rewrite map_length; lia).
  assert (nth (Z.to_nat (pos (K 0) p - 1)) (map (ph 0) (K 0)) NULL = ph 0 p) as ->.
  { rewrite (nth_indep _ NULL (ph 0 NULL)) by (rewrite map_length; unfold ZL in *; lia). rewrite map_nth, pos_nth; auto. }
  cbv zeta. rewrite E by auto. rewrite Z.eqb_refl. auto.
Qed.

(** ** Edges *)
Lemma fill_e : forall C D t a' e v0 v1, rt C D t a' -> (forall d p, In p (C d) -> In p (K d)) -> (forall d p, In p (D d) -> In p (C d)) -> C 0 = K 0 -> In e (C 1) -> ~ In e (D 1) ->
  a_e a e = Some (true, (v0, v1)) -> exists t1 t2 a'', ME_Set_Vertex t (ph 1 e) 0 (ph 0 v0) = Ok t1 /\ ME_Set_Vertex t1 (ph 1 e) 1 (ph 0 v1) = Ok t2 /\ rt C (add D 1 e) t2 a'' /\ a_next a'' = a_next a'.
Proof using P.
  intros C D t a' e v0 v1 RT IC ID C0 He Ne Ae. destruct (ends_in _ _ (P0 _ _ _ P) _ _ _ Ae) as (I0 & I1 & _ & _).
  assert (LV : forall v, In v (K 0) -> live_v a' (ph 0 v)) by (intros v Q; apply (u_v _ _ _ _ _ _ RT); rewrite C0; apply in_map; auto).
  pose proof (u_ends0 _ _ _ _ _ _ RT _ He Ne) as A1.
  destruct (reach_step _ _ (TSetVertex (ph 1 e) false (ph 0 v0)) (u_reach _ _ _ _ _ _ RT)) as (t2 & S2 & R2).
  { cbn [tpre]. split; [exact (LV _ I0)|]. exists NULL, NULL. auto. }
  assert (AE2 : a_e (astep a' (TSetVertex (ph 1 e) false (ph 0 v0))) (ph 1 e) = Some (true, (ph 0 v0, NULL))) by (cbn [astep with_e a_e]; unfold upd at 1; rewrite Z.eqb_refl, A1; auto).
  destruct (reach_step _ _ (TSetVertex (ph 1 e) true (ph 0 v1)) R2) as (t3 & S3 & R3).
  { cbn [tpre]. split; [exact (LV _ I1)|]. exists (ph 0 v0), NULL. auto. }
  set (a3 := astep (astep a' (TSetVertex (ph 1 e) false (ph 0 v0))) (TSetVertex (ph 1 e) true (ph 0 v1))) in *.
  assert (AE3 : a_e a3 (ph 1 e) = Some (true, (ph 0 v0, ph 0 v1))) by (unfold a3; cbn [astep with_e a_e] in *; unfold upd at 1; rewrite Z.eqb_refl, AE2; auto).
  assert (AEo : forall q, q <> ph 1 e -> a_e a3 q = a_e a' q) by (intros q Q; unfold a3; cbn [astep with_e a_e]; unfold upd; destruct (Z.eqb_spec q (ph 1 e)); congruence).
  assert (NE : forall p, In p (C 1) -> p <> e -> ph 1 p <> ph 1 e) by (intros p Hp Q Q'; apply (ph_inj s) in Q'; [tauto|auto|auto]).
  exists t2, t3, a3. cbn [tstep b2z] in S2, S3. split; [exact S2|]. split; [exact S3|]. split; [|reflexivity]. constructor; auto.
  - exact (u_next _ _ _ _ _ _ RT).
  - exact (u_v _ _ _ _ _ _ RT).
  - intro q. rewrite <- (u_e _ _ _ _ _ _ RT). unfold live_e. destruct (Z.eq_dec q (ph 1 e)) as [->|Q]; [rewrite AE3, A1; split; eauto|]. rewrite AEo by auto. tauto.
  - exact (u_f _ _ _ _ _ _ RT).
  - exact (u_r _ _ _ _ _ _ RT).
  - intros e' u0 u1 He' A. apply in_add in He'. destruct He' as [He'|[_ ->]].
    + rewrite AEo by (apply NE; [auto|congruence]). eapply u_ends; eauto.
    + rewrite AE3. congruence.
  - intros e' He' N. rewrite AEo by (apply NE; auto; intros ->; apply N, in_add; auto). eapply u_ends0; eauto. intro Q. apply N, in_add. auto.
  - exact (u_loop _ _ _ _ _ _ RT).
  - exact (u_loop0 _ _ _ _ _ _ RT).
  - exact (u_faces _ _ _ _ _ _ RT).
  - exact (u_faces0 _ _ _ _ _ _ RT).
Qed.
Lemma ri_t : forall C D X s' N t, ri C D X s' N -> ri C D X (with_m s' (set_ft (sm_m s') t)) N.
Proof using. intros C D X s' N t []. constructor; auto. Qed.
Definition doing (C D0 : Z -> list ptr) (d0 : Z) (dn : list ptr) (s' : smesh) : Prop := exists D a', rcv C D (K 0) s' a' /\ D d0 = dn /\ (forall d, d <> d0 -> D d = D0 d).
Lemma edges_loop : forall C D0 s', (forall d, C d = K d) -> doing C D0 1 [] s' ->
  exists s'' k, foldM (r_sedge (flat_map (edgel s a) (K 1)) (map (ph 1) (K 1))) (s', 0) (zrange 0 (ZL (K 1))) = Ok (s'', k) /\ doing C D0 1 (K 1) s''.
Proof using P.
  intros C D0 s' EC H.
  edestruct (list_loop ptr (smesh * Z) (fun dn st => doing C D0 1 dn (fst st) /\ snd st = Z.of_nat (length (flat_map (edgel s a) dn)))) with (full := K 1) (st := (s', 0)) as ([s'' k] & E & Q & _).
  3: { exists s'', k. split; [exact E|exact Q]. }
  2: { split; [exact H|reflexivity]. }
  clear s' H. intros dn z rest [s' k] Ek ((D & a' & [RI RT] & Dd & Do) & Hk). cbn [fst snd] in Hk. unfold r_sedge.
  rewrite (rda_dn 1 dn z rest Ek). cbn [bind]. pose proof (mid_in s 1 dn z rest Ek) as Kz. rewrite Ek, flat_map_app. cbn [flat_map].
  destruct (eends_ok s a w P z Kz) as (v0 & v1 & Ae & Ee & I0 & I1). assert (Ea : exists x y g, auxl s true z = [x; y; g]) by (unfold auxl; eauto). destruct Ea as (x & y & g & Ea).
  assert (El : edgel s a z = [pos (K 0) v0; pos (K 0) v1; x; y; g]) by (unfold edgel; rewrite Ee, Ea; auto). rewrite El.
  rewrite (rda_mid _ _ _ _ _ 2 x Hk) by (auto; lia). cbn [bind]. rewrite (rda_mid _ _ _ _ _ 3 y Hk) by (auto; lia). cbn [bind]. rewrite (rda_mid _ _ _ _ _ 4 g Hk) by (auto; lia). cbn [bind].
  rewrite (rda_mid0 _ _ _ _ _ (pos (K 0) v0) Hk) by auto. cbn [bind]. rewrite (rda_mid _ _ _ _ _ 1 (pos (K 0) v1) Hk) by (auto; lia). cbn [bind].
  assert (Cz : In z (C 1)) by (rewrite EC; auto). assert (Nz : ~ In z (D 1)) by (rewrite Dd; eapply fresh_in; eauto).
  pose proof (ri_aux s a w P C D (K 0) s' (a_next a') 1 z true x y g RI Cz Nz eq_refl Ea) as RI1. set (s1 := r_aux s' true (ph 1 z) x y g) in *.
  assert (KV : fm_v (sm_m s1) = map (ph 0) (K 0)) by (change (fm_v (sm_m s1)) with (kind (sm_m s1) 0); rewrite (c_kind _ _ _ _ _ _ RI1), EC; auto).
  assert (IDs : forall p, In p (K 0) -> fm_id (sm_m s1) (ph 0 p) = pos (K 0) p) by (intros p Hp; apply (c_id _ _ _ _ _ _ RI1); rewrite EC; auto).
  rewrite KV, !from_id_ph by auto. change (sm_t s1) with (sm_t s').
  destruct (fill_e C D (sm_t s') a' z v0 v1 RT) as (t1 & t2 & a2 & S1 & S2 & R2 & N2); auto.
  { intros d p. rewrite EC. auto. } { exact (c_sub _ _ _ _ _ _ RI). }
  rewrite S1. cbn [bind]. rewrite S2. cbn [bind]. eexists. split; [reflexivity|]. cbn [fst snd]. split.
  - exists (add D 1 z), a2. split; [|split; [rewrite add_same, Dd; auto|intros d N; rewrite add_other by auto; auto]]. constructor; [rewrite N2; apply ri_t; exact RI1|exact R2].
  - rewrite flat_map_app. cbn [flat_map]. rewrite app_nil_r, app_length, El. cbn [length]. lia.
Qed.

(** ** Signed lists *)
Lemma r_signed_ok : forall d b pre post k room, (forall x, In x b -> In (fst x) (K d)) -> k + 1 = Z.of_nat (length pre) -> Z.of_nat (length b) <= room ->
  r_signed (pre ++ map (bnum (K d)) b ++ post) (map (ph d) (K d)) room k (Z.of_nat (length b)) = Ok (map fst (mb d b), dirz (mb d b)).
Proof using.
  intros d b pre post k room HB Hk Hr. unfold r_signed.
  edestruct (list_loop (ptr * bool) (list ptr * list Z) (fun dn st => st = (map fst (mb d dn), dirz (mb d dn)))) with (full := b) (st := (@nil ptr, @nil Z)) as (st & E & Q).
  3: { rewrite E, Q. reflexivity. }
  2: reflexivity.
  intros dn [p g] rest st Eb ->. assert (room <=? Z.of_nat (length dn) = false) as -> by (rewrite Eb, app_length in Hr; cbn [length] in Hr; lia).
  assert (Hp : In p (K d)) by (apply (HB (p, g)); rewrite Eb; apply in_or_app; right; left; auto). pose proof (pos_range _ _ Hp) as R.
  replace (k + Z.of_nat (length dn) + 1) with ((k + 1) + Z.of_nat (length dn)) by lia.
  rewrite (rda_mid _ _ _ _ _ _ (bnum (K d) (p, g)) Hk) by (try lia; rewrite Nat2Z.id, nth_error_map, Eb, nth_error_app2, Nat.sub_diag by lia; auto). cbn [bind].
  assert (Z.abs (bnum (K d) (p, g)) = pos (K d) p) as -> by (unfold bnum; cbn [fst snd]; destruct g; lia). rewrite rda_pos by auto. cbn [bind].
  eexists. split; [reflexivity|]. unfold mapb, dirz. rewrite !map_app. cbn [map fst snd]. f_equal. f_equal. f_equal.
  unfold bnum. cbn [fst snd]. destruct g; cbn [b2z]; [assert (0 <? pos (K d) p = true) as -> by lia|assert (0 <? - pos (K d) p = false) as -> by lia]; auto.
Qed.

(** ** Faces *)
Lemma fill_f : forall C D t a' f b, rt C D t a' -> (forall d p, In p (C d) -> In p (K d)) -> (forall d p, In p (D d) -> In p (C d)) -> C 1 = K 1 -> In f (C 2) -> ~ In f (D 2) ->
  a_f a f = Some (true, Some b) -> exists t1 a'', MF_Set_Edges t (ph 2 f) (Z.of_nat (length b)) (map fst (mb 1 b)) (dirz (mb 1 b)) = Ok t1 /\ rt C (add D 2 f) t1 a'' /\ a_next a'' = a_next a'.
Proof using P.
  intros C D t a' f b RT IC ID C1 Hf Nf Af. pose proof (i_w _ _ (reach_inv _ _ (sd_reach _ _ _ P))) as WF. destruct (w_fnd _ WF _ _ _ Af) as [ND LB].
  assert (HB : forall x, In x b -> In (fst x) (K 1)) by (intros x Hx; apply (face_edges_in _ _ (P0 _ _ _ P) _ _ Af x Hx)).
  pose proof (u_loop0 _ _ _ _ _ _ RT _ Hf Nf) as A1.
  destruct (reach_step _ _ (TSetEdges (ph 2 f) (mb 1 b)) (u_reach _ _ _ _ _ _ RT)) as (t2 & S2 & R2).
  { cbn [tpre]. split; [left; auto|]. split; [apply mapb_nd; auto|]. split; [unfold mapb; rewrite map_length; auto|]. apply Forall_forall. intros x Hx. apply in_map_iff in Hx. destruct Hx as (y & <- & Hy). cbn [fst].
    apply (u_e _ _ _ _ _ _ RT). rewrite C1. apply in_map. auto. }
  cbn [tstep] in S2. replace (Z.of_nat (length (mb 1 b))) with (Z.of_nat (length b)) in S2 by (unfold mapb; rewrite map_length; auto).
  set (a3 := astep a' (TSetEdges (ph 2 f) (mb 1 b))) in *.
  assert (AF3 : a_f a3 (ph 2 f) = Some (true, Some (mb 1 b))) by (unfold a3; cbn [astep set_fb with_f a_f]; unfold upd at 1; rewrite Z.eqb_refl, A1; auto).
  assert (AFo : forall q, q <> ph 2 f -> a_f a3 q = a_f a' q) by (intros q Q; unfold a3; cbn [astep set_fb with_f a_f]; unfold upd; destruct (Z.eqb_spec q (ph 2 f)); congruence).
  assert (NE : forall p, In p (C 2) -> p <> f -> ph 2 p <> ph 2 f) by (intros p Hp Q Q'; apply (ph_inj s) in Q'; [tauto|auto|auto]).
  exists t2, a3. split; [exact S2|]. split; [|reflexivity]. constructor; auto.
  - exact (u_next _ _ _ _ _ _ RT).
  - exact (u_v _ _ _ _ _ _ RT).
  - exact (u_e _ _ _ _ _ _ RT).
  - intro q. rewrite <- (u_f _ _ _ _ _ _ RT). unfold live_f. destruct (Z.eq_dec q (ph 2 f)) as [->|Q]; [rewrite AF3, A1; split; eauto|]. rewrite AFo by auto. tauto.
  - exact (u_r _ _ _ _ _ _ RT).
  - exact (u_ends _ _ _ _ _ _ RT).
  - exact (u_ends0 _ _ _ _ _ _ RT).
  - intros e' u He' A. apply in_add in He'. destruct He' as [He'|[_ ->]].
    + rewrite AFo by (apply NE; [auto|congruence]). eapply u_loop; eauto.
    + rewrite AF3. congruence.
  - intros e' He' N. rewrite AFo by (apply NE; auto; intros ->; apply N, in_add; auto). eapply u_loop0; eauto. intro Q. apply N, in_add. auto.
  - exact (u_faces _ _ _ _ _ _ RT).
  - exact (u_faces0 _ _ _ _ _ _ RT).
Qed.
(** A record of a face or a region in a buffer. *)
Lemma in_record : forall d bd b z x y g pre post k, auxl s bd z = [x; y; g] -> k = Z.of_nat (length pre) -> let n := Z.of_nat (length b) in let l := pre ++ bl s d bd b z ++ post in
  rda l k = Ok n /\ rda l (k + n + 1) = Ok x /\ rda l (k + n + 2) = Ok y /\ rda l (k + n + 3) = Ok g /\
  l = (pre ++ [n]) ++ map (bnum (K d)) b ++ ([x; y; g] ++ post) /\ Z.of_nat (length (bl s d bd b z)) = n + 4.
Proof using.
  intros d bd b z x y g pre post k Ea Hk n l.
  assert (NE : forall j v, nth_error [x; y; g] j = Some v -> nth_error (bl s d bd b z) (Z.to_nat (n + 1 + Z.of_nat j)) = Some v).
  { intros j v Hj. unfold bl. rewrite Ea. replace (Z.to_nat (n + 1 + Z.of_nat j)) with (S (length (map (bnum (K d)) b) + j)) by (rewrite map_length; unfold n; lia). cbn [nth_error]. rewrite nth_error_app2 by lia. rewrite Nat.add_comm, Nat.add_sub. auto. }
  assert (G : forall j v, nth_error [x; y; g] j = Some v -> rda l (k + n + (Z.of_nat j + 1)) = Ok v).
  { intros j v Hj. unfold l. replace (k + n + (Z.of_nat j + 1)) with (k + (n + 1 + Z.of_nat j)) by lia. apply rda_mid; auto. unfold n. lia. }
  split; [unfold l; apply rda_mid0; auto|]. split; [exact (G 0%nat x eq_refl)|]. split; [exact (G 1%nat y eq_refl)|]. split; [exact (G 2%nat g eq_refl)|]. split.
  - unfold l, bl. rewrite Ea. cbn [app]. rewrite <- !app_assoc. reflexivity.
  - unfold bl. cbn [length]. rewrite app_length, map_length, Ea. cbn [length]. unfold n. lia.
Qed.
Lemma faces_loop : forall C D0 s', (forall d, C d = K d) -> doing C D0 2 [] s' ->
  exists s'' k, foldM (r_sface (flat_map (facel s a) (K 2)) (map (ph 1) (K 1)) (map (ph 2) (K 2))) (s', 0) (zrange 0 (ZL (K 2))) = Ok (s'', k) /\ doing C D0 2 (K 2) s''.
Proof using P.
  intros C D0 s' EC H.
  edestruct (list_loop ptr (smesh * Z) (fun dn st => doing C D0 2 dn (fst st) /\ snd st = Z.of_nat (length (flat_map (facel s a) dn)))) with (full := K 2) (st := (s', 0)) as ([s'' k] & E & Q & _).
  3: { exists s'', k. split; [exact E|exact Q]. }
  2: { split; [exact H|reflexivity]. }
  clear s' H. intros dn z rest [s' k] Ek ((D & a' & [RI RT] & Dd & Do) & Hk). cbn [fst snd] in Hk. unfold r_sface.
  rewrite (rda_dn 2 dn z rest Ek). cbn [bind]. pose proof (mid_in s 2 dn z rest Ek) as Kz. rewrite Ek, flat_map_app. cbn [flat_map].
  pose proof (face_full _ _ (P0 _ _ _ P) z Kz) as Af. change (facel s a z) with (bl s 1 true (fbdry a z) z). set (b := fbdry a z) in *. assert (Ea : exists x y g, auxl s true z = [x; y; g]) by (unfold auxl; eauto). destruct Ea as (x & y & g & Ea).
  destruct (in_record 1 true b z x y g (flat_map (facel s a) dn) (flat_map (facel s a) rest) k Ea Hk) as (Q1 & Q2 & Q3 & Q4 & Q5 & Q6).
  rewrite Q1. cbn [bind]. pose proof (sd_loops _ _ _ P _ _ Af) as L30.
  assert (HB : forall x, In x b -> In (fst x) (K 1)) by (intros x1 Hx; apply (face_edges_in _ _ (P0 _ _ _ P) _ _ Af x1 Hx)).
  assert (Q7 : r_signed (flat_map (facel s a) dn ++ bl s 1 true b z ++ flat_map (facel s a) rest) (map (ph 1) (K 1)) MAXPV2 k (Z.of_nat (length b)) = Ok (map fst (mb 1 b), dirz (mb 1 b))).
  { rewrite Q5. apply r_signed_ok; [exact HB|rewrite app_length; cbn [length]; lia|unfold MAXPV2; lia]. }
  rewrite Q7. cbn [bind]. rewrite Q2. cbn [bind]. rewrite Q3. cbn [bind]. rewrite Q4. cbn [bind].
  assert (Cz : In z (C 2)) by (rewrite EC; auto). assert (Nz : ~ In z (D 2)) by (rewrite Dd; eapply fresh_in; eauto).
  pose proof (ri_aux s a w P C D (K 0) s' (a_next a') 2 z true x y g RI Cz Nz eq_refl Ea) as RI1. set (s1 := r_aux s' true (ph 2 z) x y g) in *. change (sm_t s1) with (sm_t s').
  destruct (fill_f C D (sm_t s') a' z b RT) as (t1 & a2 & S1 & R2 & N2); auto.
  { intros d p. rewrite EC. auto. } { exact (c_sub _ _ _ _ _ _ RI). }
  rewrite S1. cbn [bind]. eexists. split; [reflexivity|]. cbn [fst snd]. split.
  - exists (add D 2 z), a2. split; [|split; [rewrite add_same, Dd; auto|intros d N; rewrite add_other by auto; auto]]. constructor; [rewrite N2; apply ri_t; exact RI1|exact R2].
  - rewrite flat_map_app. cbn [flat_map]. rewrite app_nil_r, app_length. change (facel s a z) with (bl s 1 true b z). lia.
Qed.

(** ** Regions *)
Lemma fill_r : forall C D t a' r b, rt C D t a' -> (forall d p, In p (C d) -> In p (K d)) -> (forall d p, In p (D d) -> In p (C d)) -> D 2 = K 2 -> In r (C 3) -> ~ In r (D 3) ->
  a_r a r = Some (true, Some b) -> exists t1 a'', MR_Set_Faces t (ph 3 r) (Z.of_nat (length b)) (map fst (mb 2 b)) (dirz (mb 2 b)) = Ok t1 /\ rt C (add D 3 r) t1 a'' /\ a_next a'' = a_next a'.
Proof using P.
  intros C D t a' r b RT IC ID D2 Hr Nr Ar. pose proof (i_w _ _ (reach_inv _ _ (sd_reach _ _ _ P))) as WF. destruct (w_rnd _ WF _ _ _ Ar) as [ND LB].
  assert (HB : forall x, In x b -> In (fst x) (K 2)) by (intros x Hx; apply (reg_faces_in _ _ (P0 _ _ _ P) _ _ Ar x Hx)).
  pose proof (u_faces0 _ _ _ _ _ _ RT _ Hr Nr) as A1.
  destruct (reach_step _ _ (TSetFaces (ph 3 r) (mb 2 b)) (u_reach _ _ _ _ _ _ RT)) as (t2 & S2 & R2).
  { cbn [tpre]. split; [left; auto|]. split; [apply mapb_nd; auto|]. split; [unfold mapb; rewrite map_length; auto|]. split.
    - apply Forall_forall. intros x Hx. apply in_map_iff in Hx. destruct Hx as (y & <- & Hy). cbn [fst]. pose proof (face_full _ _ (P0 _ _ _ P) _ (HB _ Hy)) as FF.
      exists (mb 1 (fbdry a (fst y))). apply (u_loop _ _ _ _ _ _ RT); auto. rewrite D2. auto.
    - intros g d q Hg (bq & Q1 & Q2).
      assert (LQ : live_r a' q) by (eexists; eauto). apply (u_r _ _ _ _ _ _ RT) in LQ. apply in_map_iff in LQ. destruct LQ as (r' & <- & Hr'). pose proof (IC _ _ Hr') as Kr'.
      destruct (in_dec Z.eq_dec r' (D 3)) as [Dr'|Dr']; [|rewrite (u_faces0 _ _ _ _ _ _ RT _ Hr' Dr') in Q1; discriminate].
      pose proof (reg_full _ _ (P0 _ _ _ P) _ Kr') as FR. pose proof (u_faces _ _ _ _ _ _ RT _ _ Dr' FR) as FT. rewrite Q1 in FT. inversion FT; subst bq. apply in_map_iff in Q2. destruct Q2 as ([g1 d1] & X1 & Y1). apply in_map_iff in Hg. destruct Hg as ([g2 d2] & X2 & Y2).
      inversion X1; inversion X2; subst. cbn [fst snd] in *. assert (g1 = g2) as <-.
      { assert (E3 : ph 2 g2 = ph 2 g1) by congruence. apply (ph_inj s) in E3; [destruct E3; auto|apply (HB _ Y2)|apply (reg_faces_in _ _ (P0 _ _ _ P) _ _ FR _ Y1)]. }
      f_equal. apply (one_region _ _ (P0 _ _ _ P) g1 d); [exists (rbdry a r'); auto|exists b; split; auto; congruence]. }
  cbn [tstep] in S2. replace (Z.of_nat (length (mb 2 b))) with (Z.of_nat (length b)) in S2 by (unfold mapb; rewrite map_length; auto).
  set (a3 := astep a' (TSetFaces (ph 3 r) (mb 2 b))) in *.
  assert (AF3 : a_r a3 (ph 3 r) = Some (true, Some (mb 2 b))) by (unfold a3; cbn [astep set_rb with_r a_r]; unfold upd at 1; rewrite Z.eqb_refl, A1; auto).
  assert (AFo : forall q, q <> ph 3 r -> a_r a3 q = a_r a' q) by (intros q Q; unfold a3; cbn [astep set_rb with_r a_r]; unfold upd; destruct (Z.eqb_spec q (ph 3 r)); congruence).
  assert (NE : forall p, In p (C 3) -> p <> r -> ph 3 p <> ph 3 r) by (intros p Hp Q Q'; apply (ph_inj s) in Q'; [tauto|auto|auto]).
  exists t2, a3. split; [exact S2|]. split; [|reflexivity]. constructor; auto.
  - exact (u_next _ _ _ _ _ _ RT).
  - exact (u_v _ _ _ _ _ _ RT).
  - exact (u_e _ _ _ _ _ _ RT).
  - exact (u_f _ _ _ _ _ _ RT).
  - intro q. rewrite <- (u_r _ _ _ _ _ _ RT). unfold live_r. destruct (Z.eq_dec q (ph 3 r)) as [->|Q]; [rewrite AF3, A1; split; eauto|]. rewrite AFo by auto. tauto.
  - exact (u_ends _ _ _ _ _ _ RT).
  - exact (u_ends0 _ _ _ _ _ _ RT).
  - exact (u_loop _ _ _ _ _ _ RT).
  - exact (u_loop0 _ _ _ _ _ _ RT).
  - intros e' u He' A. apply in_add in He'. destruct He' as [He'|[_ ->]].
    + rewrite AFo by (apply NE; [auto|congruence]). eapply u_faces; eauto.
    + rewrite AF3. congruence.
  - intros e' He' N. rewrite AFo by (apply NE; auto; intros ->; apply N, in_add; auto). eapply u_faces0; eauto. intro Q. apply N, in_add. auto.
Qed.
Lemma regions_loop : forall C D0 s', (forall d, C d = K d) -> D0 2 = K 2 -> doing C D0 3 [] s' ->
  exists s'' k, foldM (r_sregion (flat_map (regl s a) (K 3)) (map (ph 2) (K 2))) (s', 0) (zrange 0 (ZL (K 3))) = Ok (s'', k) /\ doing C D0 3 (K 3) s''.
Proof using P.
  intros C D0 s' EC D02 H.
  edestruct (list_loop ptr (smesh * Z) (fun dn st => doing C D0 3 dn (fst st) /\ snd st = Z.of_nat (length (flat_map (regl s a) dn)))) with (full := K 3) (st := (s', 0)) as ([s'' k] & E & Q & _).
  3: { exists s'', k. split; [exact E|exact Q]. }
  2: { split; [exact H|reflexivity]. }
  clear s' H. intros dn z rest [s' k] Ek ((D & a' & [RI RT] & Dd & Do) & Hk). cbn [fst snd] in Hk. unfold r_sregion.
  assert (KV : fm_r (sm_m s') = map (ph 3) (K 3)) by (change (fm_r (sm_m s')) with (kind (sm_m s') 3); rewrite (c_kind _ _ _ _ _ _ RI), EC; auto).
  change (Z.of_nat (length dn)) with (ZL dn). rewrite (lent_dn s 3 dn z rest _ Ek KV). cbn [bind]. pose proof (mid_in s 3 dn z rest Ek) as Kz. rewrite Ek, flat_map_app. cbn [flat_map].
  pose proof (reg_full _ _ (P0 _ _ _ P) z Kz) as Af. change (regl s a z) with (bl s 2 false (rbdry a z) z). set (b := rbdry a z) in *. assert (Ea : exists x y g, auxl s false z = [x; y; g]) by (unfold auxl; eauto). destruct Ea as (x & y & g & Ea).
  destruct (in_record 2 false b z x y g (flat_map (regl s a) dn) (flat_map (regl s a) rest) k Ea Hk) as (Q1 & Q2 & Q3 & Q4 & Q5 & Q6).
  rewrite Q1. cbn [bind]. destruct (w_rnd _ (i_w _ _ (reach_inv _ _ (sd_reach _ _ _ P))) _ _ _ Af) as [ND LB]. unfold maxrf in LB.
  assert (HB : forall x, In x b -> In (fst x) (K 2)) by (intros x1 Hx; apply (reg_faces_in _ _ (P0 _ _ _ P) _ _ Af x1 Hx)).
  assert (Q7 : r_signed (flat_map (regl s a) dn ++ bl s 2 false b z ++ flat_map (regl s a) rest) (map (ph 2) (K 2)) MAXPF3 k (Z.of_nat (length b)) = Ok (map fst (mb 2 b), dirz (mb 2 b))).
  { rewrite Q5. apply r_signed_ok; [exact HB|rewrite app_length; cbn [length]; lia|unfold MAXPF3; lia]. }
  rewrite Q7. cbn [bind]. rewrite Q2. cbn [bind]. rewrite Q3. cbn [bind]. rewrite Q4. cbn [bind].
  assert (Cz : In z (C 3)) by (rewrite EC; auto). assert (Nz : ~ In z (D 3)) by (rewrite Dd; eapply fresh_in; eauto).
  pose proof (ri_aux s a w P C D (K 0) s' (a_next a') 3 z false x y g RI Cz Nz eq_refl Ea) as RI1. set (s1 := r_aux s' false (ph 3 z) x y g) in *. change (sm_t s1) with (sm_t s').
  destruct (fill_r C D (sm_t s') a' z b RT) as (t1 & a2 & S1 & R2 & N2); auto.
  { intros d p. rewrite EC. auto. } { exact (c_sub _ _ _ _ _ _ RI). } { rewrite Do by lia. auto. }
  rewrite S1. cbn [bind]. eexists. split; [reflexivity|]. cbn [fst snd]. split.
  - exists (add D 3 z), a2. split; [|split; [rewrite add_same, Dd; auto|intros d N; rewrite add_other by auto; auto]]. constructor; [rewrite N2; apply ri_t; exact RI1|exact R2].
  - rewrite flat_map_app. cbn [flat_map]. rewrite app_nil_r, app_length. change (regl s a z) with (bl s 2 false b z). lia.
Qed.

(** ** All of them *)
Lemma K_out : forall d, d < 0 \/ 3 < d -> K d = [].
Proof using. intros d H. unfold skind, kind. assert (d =? 0 = false) as -> by lia. assert (d =? 1 = false) as -> by lia. assert (d =? 2 = false) as -> by lia. assert (d =? 3 = false) as -> by lia. auto. Qed.
Definition rmsg : list msg := if ZL (K 3) =? 0 then [] else [MInts (flat_map (regl s a) (K 3))].
Lemma recv_rmsg : forall q, recv_if (negb (ZL (K 3) =? 0)) (516 * ZL (K 3)) (rmsg ++ q) = Ok (flat_map (regl s a) (K 3), q).
Proof using P.
  intro q. unfold rmsg, recv_if. destruct (Z.eqb_spec (ZL (K 3)) 0) as [E|E]; cbn [negb app].
  - unfold ZL in E. destruct (K 3); [auto|cbn [length] in E; lia].
  - cbn [recv_ints]. assert (LB : (length (flat_map (regl s a) (K 3)) <= 516 * length (K 3))%nat).
    { apply flat_le. intros r Hr. pose proof (reg_full _ _ (P0 _ _ _ P) r Hr) as Ar. destruct (w_rnd _ (i_w _ _ (reach_inv _ _ (sd_reach _ _ _ P))) _ _ _ Ar) as [_ LB]. unfold maxrf in LB.
      unfold regl, bl. cbn [length]. rewrite app_length, map_length. unfold auxl. cbn [length]. lia. }
    assert (Z.of_nat (length (flat_map (regl s a) (K 3))) <=? 516 * ZL (K 3) = true) as -> by (unfold ZL; lia). auto.
Qed.
Lemma r_nonvertex_ok : forall C D s' a' q, 516 * ZL (K 3) < 2 ^ 31 -> rcv C D (K 0) s' a' -> stage (m0 s) 1 C -> C 1 = [] -> C 0 = K 0 -> D 0 = K 0 -> (forall d, d <> 0 -> D d = []) ->
  exists s'' a'', r_nonvertex s' (ZL (K 1)) (ZL (K 2)) (ZL (K 3)) (MInts (flat_map (edgel s a) (K 1)) :: MInts (flat_map (facel s a) (K 2)) :: rmsg ++ q) = Ok (s'', q) /\ rcv K K (K 0) s'' a''.
Proof using P.
  intros C D s' a' q Z4 R ST C1 C0 D0 Dn. unfold r_nonvertex. destruct (sd_some _ _ _ P) as [N1 N2]. destruct (sd_size _ _ _ P) as (Z0 & Z1 & Z2 & Z3).
  assert (B1 : ZL (K 1) =? 0 = false) by (unfold ZL; destruct (K 1); [congruence|cbn [length]; lia]). assert (B2 : ZL (K 2) =? 0 = false) by (unfold ZL; destruct (K 2); [congruence|cbn [length]; lia]).
  assert (ZL (fm_v (sm_m s')) =? 0 = false) as ->.
  { change (fm_v (sm_m s')) with (kind (sm_m s') 0). rewrite (c_kind _ _ _ _ _ _ (v_i _ _ _ _ _ _ _ R)), C0. destruct (K 1) as [|e0 l] eqn:E; [congruence|]. destruct (eends_ok s a w P e0 ltac:(rewrite E; left; auto)) as (v0 & v1 & _ & _ & I0 & _).
    unfold ZL. rewrite map_length. destruct (K 0); [destruct I0|cbn [length]; lia]. }
  rewrite B1, B2. cbn [andb negb]. change (2 + 3) with 5. change (1 + MAXPV2 + 3) with 34. change (1 + MAXPF3 + 3) with 516.
  rewrite !ck32_ok by (unfold ZL in *; lia). cbn [bind recv_if recv_ints].
  assert (LE : length (flat_map (edgel s a) (K 1)) = (5 * length (K 1))%nat) by (apply flat_length; reflexivity). rewrite LE. assert (Z.of_nat (5 * length (K 1)) <=? 5 * ZL (K 1) = true) as -> by (unfold ZL; lia). cbn [bind].
  assert (LF : (length (flat_map (facel s a) (K 2)) <= 34 * length (K 2))%nat).
  { apply flat_le. intros f Hf. pose proof (face_full _ _ (P0 _ _ _ P) f Hf) as Af. pose proof (sd_loops _ _ _ P _ _ Af). unfold facel, bl. cbn [length]. rewrite app_length, map_length. unfold auxl. cbn [length]. lia. }
  cbn [recv_ints]. assert (Z.of_nat (length (flat_map (facel s a) (K 2))) <=? 34 * ZL (K 2) = true) as -> by (unfold ZL; lia). cbn [bind]. rewrite recv_rmsg. cbn [bind].
  destruct (add_many_ok s a w P 1 add_e _ _ _ _ _ (create_e s a w P) R ST C1) as (Ce & me & ae & Ee & Re & Se & Ne & EQe). rewrite Ee. change (1 + 1) with 2 in *.
  destruct (add_many_ok s a w P 2 add_f _ _ _ _ _ (create_f s a w P) Re Se Ne) as (Cf & mf & af & Ef & Rf & Sf & Nf & EQf). cbn [sm_m with_m] in Ef. rewrite Ef. change (2 + 1) with 3 in *.
  destruct (add_many_ok s a w P 3 add_r _ _ _ _ _ (create_r s a w P) Rf Sf Nf) as (Cr & mr & ar & Er & Rr & Sr & Nr & EQr). cbn [sm_m with_m] in Er. rewrite Er.
  assert (EC : forall d, Cr d = K d).
  { intro d. rewrite EQr, EQf, EQe. destruct (Z.eqb_spec d 3) as [->|]; auto. destruct (Z.eqb_spec d 2) as [->|]; auto. destruct (Z.eqb_spec d 1) as [->|]; auto. destruct (Z.eq_dec d 0) as [->|]; auto.
    rewrite K_out by lia. destruct (Z_lt_ge_dec d 1); [rewrite (proj1 ST d) by lia; apply K_out; lia|apply (proj2 ST); lia]. }
  change (with_m (with_m (with_m s' me) mf) mr) with (with_m s' mr) in Rr.
  destruct (edges_loop Cr D (with_m s' mr) EC) as (s1 & k1 & F1 & D1 & a1 & R1 & D11 & D1o). { exists D, ar. split; [exact Rr|]. split; [apply Dn; lia|auto]. }
  rewrite F1. cbn [bind].
  destruct (faces_loop Cr D1 s1 EC) as (s2 & k2 & F2 & D2 & a2 & R2 & D22 & D2o). { exists D1, a1. split; [exact R1|]. split; [rewrite D1o by lia; apply Dn; lia|auto]. }
  rewrite F2. cbn [bind].
  destruct (regions_loop Cr D2 s2 EC D22) as (s3 & k3 & F3 & D3 & a3 & R3 & D33 & D3o). { exists D2, a2. split; [exact R2|]. split; [rewrite D2o, D1o by lia; apply Dn; lia|auto]. }
  rewrite F3. cbn [bind]. exists s3, a3. split; [reflexivity|].
  assert (ED : forall d, D3 d = K d).
  { intro d. destruct (Z.eq_dec d 3) as [->|]; auto. rewrite D3o by auto. destruct (Z.eq_dec d 2) as [->|]; auto. rewrite D2o by auto. destruct (Z.eq_dec d 1) as [->|]; auto. rewrite D1o by auto. destruct (Z.eq_dec d 0) as [->|]; auto. rewrite Dn by auto. rewrite K_out by lia. auto. }
  destruct R3 as [RI RT]. constructor; [|eapply rt_ext; [exact RT|intro d; rewrite EC; auto|intro d; rewrite ED; auto]].
  destruct RI as [A1 A2 A3 A4 A5 A6 A7 A8 A9 A10 A11]. constructor; auto.
  - intros d p H. apply A1. rewrite EC. auto.
  - intro d. rewrite A4, EC. auto.
  - intros d p H. apply A5. rewrite EC. auto.
  - intros d p H. apply A6. rewrite ED. auto.
  - intros d p H. apply A7. rewrite ED. auto.
  - intros q0 H. apply A8. intros d p. rewrite ED. auto.
Qed.
End Receive3.
