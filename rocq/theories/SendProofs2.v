(** Receiving the entities of a mesh: creating them and the vertices. *)
From Coq Require Import ZArith Bool Ascii String Floats.SpecFloat List Lia Arith ZifyBool ZifyNat.
From Verif Require Import Base BaseProofs ListSpec AttModel AttProps TopoModel TopoSpec TopoProofs TopoProofs2 TopoProofs3 TopoProofs5 TopoProps ParModel SortModel BuildProofs3 FileModel FileSpec FileProofs FileProofs2 FileProofs3 FileProofs4 SendModel SendSpec SendProofs.
Import ListNotations.
Open Scope Z_scope.

(** ** Loops over a list and buffers *)
Lemma list_loop : forall A St (Q : list A -> St -> Prop) (step : St -> Z -> result St) full,
  (forall dn w rest st, full = dn ++ w :: rest -> Q dn st -> exists st', step st (Z.of_nat (length dn)) = Ok st' /\ Q (dn ++ [w]) st') ->
  forall st, Q [] st -> exists st', foldM step st (zrange 0 (Z.of_nat (length full))) = Ok st' /\ Q full st'.
Proof.
  intros A St Q step full H.
  assert (G : forall rest dn st, full = dn ++ rest -> Q dn st -> exists st', foldM step st (zrange (Z.of_nat (length dn)) (Z.of_nat (length full))) = Ok st' /\ Q full st').
  { induction rest as [|w rest IH]; intros dn st E X.
    - rewrite app_nil_r in E. subst dn. rewrite zrange_nil by lia. exists st. auto.
    - destruct (H dn w rest st E X) as (st1 & E1 & X1). rewrite zrange_cons by (rewrite E, app_length; cbn [length]; lia). cbn [foldM]. rewrite E1. cbn [bind].
      destruct (IH (dn ++ [w]) st1) as (st2 & E2 & X2); [rewrite <- app_assoc; auto|auto|]. exists st2. rewrite app_length in E2. cbn [length] in E2.
      replace (Z.of_nat (length dn) + 1) with (Z.of_nat (length dn + 1)) by lia. auto. }
  intros st X. apply (G full [] st); auto.
Qed.
Lemma rda_mid : forall A (pre c post : list A) k j x, k = Z.of_nat (length pre) -> 0 <= j -> nth_error c (Z.to_nat j) = Some x -> rda (pre ++ c ++ post) (k + j) = Ok x.
Proof.
  intros A pre c post k j x -> J E. unfold rda. assert (Z.of_nat (length pre) + j <? 0 = false) as -> by lia. assert (Z.to_nat j < length c)%nat by (apply nth_error_Some; congruence).
  rewrite nth_error_app2 by lia. replace (Z.to_nat (Z.of_nat (length pre) + j) - length pre)%nat with (Z.to_nat j) by lia. rewrite nth_error_app1 by lia. rewrite E. auto.
Qed.
Lemma rda_mid0 : forall A (pre c post : list A) k x, k = Z.of_nat (length pre) -> nth_error c 0 = Some x -> rda (pre ++ c ++ post) k = Ok x.
Proof. intros A pre c post k x E H. rewrite <- (Z.add_0_r k). apply rda_mid; auto. lia. Qed.
Lemma rda_app : forall A (pre : list A) x post, rda (pre ++ x :: post) (Z.of_nat (length pre)) = Ok x.
Proof. intros. rewrite <- (Z.add_0_r (Z.of_nat (length pre))). apply (rda_mid A pre [x] post _ 0 x); auto. lia. Qed.
Lemma flat_length : forall A B (h : A -> list B) n l, (forall x, In x l -> length (h x) = n) -> length (flat_map h l) = (n * length l)%nat.
Proof. induction l as [|x l IH]; intros H; cbn [flat_map length]; [lia|]. rewrite app_length, IH, H by (intros; try apply H; cbn; auto). lia. Qed.

Section Receive.
Variables (s : smesh) (a : amesh) (w : bool).
Hypothesis P : outgoing s a w.
Notation K := (skind s).
Notation ph := (phi (m0 s)).
Definition pout (d : Z) (p : ptr) : pinfo := let i := sm_p s p in mkPI (pi_ptype i) (if d <? 3 then pi_bdry i else false) (pi_master i) (pi_gid i).

(** ** What is received: [C d] of dimension [d] created, [D d] filled, the coordinates of [X] *)
Record ri (C D : Z -> list ptr) (X : list ptr) (s' : smesh) (N : Z) : Prop := mkRI {
  c_in : forall d p, In p (C d) -> In p (K d) /\ ph d p < N;
  c_sub : forall d p, In p (D d) -> In p (C d);
  c_xs : forall p, In p X -> In p (C 0);
  c_kind : forall d, kind (sm_m s') d = map (ph d) (C d);
  c_id : forall d p, In p (C d) -> fm_id (sm_m s') (ph d p) = pos (K d) p;
  c_c : forall d p, In p (D d) -> fm_c (sm_m s') (ph d p) = fm_c (sm_m s) p;
  c_p : forall d p, In p (D d) -> sm_p s' (ph d p) = pout d p;
  c_b : forall q, (forall d p, In p (D d) -> ph d p <> q) -> pi_bdry (sm_p s' q) = false;
  c_x : forall p, In p X -> fm_x (sm_m s') (ph 0 p) = fm_x (sm_m s) p;
  c_at : fm_atts (sm_m s') = [];
  c_st : sm_sets s' = [] }.
Record rt (C D : Z -> list ptr) (t : topo) (a' : amesh) : Prop := mkRT {
  u_reach : reach t a';
  u_next : a_next a' = 1 + ZL (C 0) + ZL (C 1) + ZL (C 2) + ZL (C 3);
  u_v : forall q, live_v a' q <-> In q (map (ph 0) (C 0));
  u_e : forall q, live_e a' q <-> In q (map (ph 1) (C 1));
  u_f : forall q, live_f a' q <-> In q (map (ph 2) (C 2));
  u_r : forall q, live_r a' q <-> In q (map (ph 3) (C 3));
  u_ends : forall e v0 v1, In e (D 1) -> a_e a e = Some (true, (v0, v1)) -> a_e a' (ph 1 e) = Some (true, (ph 0 v0, ph 0 v1));
  u_ends0 : forall e, In e (C 1) -> ~ In e (D 1) -> a_e a' (ph 1 e) = Some (true, (NULL, NULL));
  u_loop : forall f b, In f (D 2) -> a_f a f = Some (true, Some b) -> a_f a' (ph 2 f) = Some (true, Some (mapb (m0 s) 1 b));
  u_loop0 : forall f, In f (C 2) -> ~ In f (D 2) -> a_f a' (ph 2 f) = Some (true, None);
  u_faces : forall r b, In r (D 3) -> a_r a r = Some (true, Some b) -> a_r a' (ph 3 r) = Some (true, Some (mapb (m0 s) 2 b));
  u_faces0 : forall r, In r (C 3) -> ~ In r (D 3) -> a_r a' (ph 3 r) = Some (true, None) }.
Record rcv (C D : Z -> list ptr) (X : list ptr) (s' : smesh) (a' : amesh) : Prop := mkRcv { v_i : ri C D X s' (a_next a'); v_t : rt C D (sm_t s') a' }.
Notation stage := (stage (m0 s)).

Lemma in_add : forall L D z d p, In p (add L D z d) <-> In p (L d) \/ (d = D /\ p = z).
Proof using. intros. unfold add. destruct (Z.eqb_spec d D) as [->|]; [rewrite in_app_iff; cbn; intuition|intuition]. Qed.
Lemma add_same : forall L D z, add L D z D = L D ++ [z].
Proof using. intros. unfold add. rewrite Z.eqb_refl. auto. Qed.
Lemma add_other : forall L D z d, d <> D -> add L D z d = L d.
Proof using. intros. unfold add. destruct (Z.eqb_spec d D); congruence. Qed.
Lemma rcv0 : rcv (fun _ => []) (fun _ => []) [] empty_smesh amesh0.
Proof using.
  constructor; constructor; cbn; auto; try (intros; contradiction).
  - intro d. unfold kind. cbn. destruct (d =? 0), (d =? 1), (d =? 2), (d =? 3); auto.
  - exists []. split; [exact I|split; reflexivity].
  - intro q. unfold live_v. cbn. split; [discriminate|tauto].
  - intro q. unfold live_e. cbn. split; [intros [x H]; discriminate|tauto].
  - intro q. unfold live_f. cbn. split; [intros [x H]; discriminate|tauto].
  - intro q. unfold live_r. cbn. split; [intros [x H]; discriminate|tauto].
Qed.

(** ** Creating *)
Lemma ph_next : forall D L Dn t a' z rest, stage D L -> rt L Dn t a' -> K D = L D ++ z :: rest -> ph D z = a_next a' /\ pos (K D) z = ZL (L D) + 1 /\ In z (K D) /\ ~ In z (L D).
Proof using P.
  intros D L Dn t a' z rest [A B] T E. assert (H : In z (K D)) by (rewrite E; apply in_or_app; right; left; auto).
  assert (N : ~ In z (L D)) by (pose proof (sd_nd _ _ _ P D) as ND; rewrite E in ND; apply NoDup_remove_2 in ND; intro Q; apply ND; apply in_or_app; auto).
  assert (Ep : pos (K D) z = ZL (L D) + 1) by (rewrite E; apply pos_app; auto).
  split; [|auto]. rewrite (u_next _ _ _ _ T). unfold phi. change (kind (m0 s) D) with (K D). rewrite Ep. unfold base.
  assert (Z0 : forall d, D < d -> ZL (L d) = 0) by (intros d Hd; rewrite (B d Hd); auto).
  destruct (kind_cases _ _ _ H) as [-> | [-> | [-> | ->]]]; cbn [Z.ltb Z.compare Pos.compare Pos.compare_cont];
    rewrite ?(Z0 1), ?(Z0 2), ?(Z0 3), ?(A 0), ?(A 1), ?(A 2) by lia; cbn [kind Z.eqb Pos.eqb m0 fm_v fm_e fm_f fm_r]; unfold ZL; lia.
Qed.
Lemma ri_new : forall C D X s' N d0 z rest s'', ri C D X s' N -> K d0 = C d0 ++ z :: rest -> ph d0 z = N ->
  (forall d, kind (sm_m s'') d = if d =? d0 then kind (sm_m s') d ++ [N] else kind (sm_m s') d) ->
  (forall q, fm_id (sm_m s'') q = if q =? N then pos (K d0) z else fm_id (sm_m s') q) ->
  fm_c (sm_m s'') = fm_c (sm_m s') -> fm_x (sm_m s'') = fm_x (sm_m s') -> sm_p s'' = sm_p s' -> fm_atts (sm_m s'') = fm_atts (sm_m s') -> sm_sets s'' = sm_sets s' ->
  ri (add C d0 z) D X s'' (N + 1).
Proof using.
  intros C D X s' N d0 z rest s'' [A1 A2 A3 A4 A5 A6 A7 A8 A9 A10 A11] E F H1 H2 H3 H4 H5 H6 H7.
  assert (Hz : In z (K d0)) by (rewrite E; apply in_or_app; right; left; auto).
  constructor; rewrite ?H3, ?H4, ?H5, ?H6, ?H7; auto.
  - intros d p H. apply in_add in H. destruct H as [H|[-> ->]]; [destruct (A1 _ _ H); split; auto; lia|split; auto; lia].
  - intros d p H. apply in_add. auto.
  - intros p H. apply in_add. auto.
  - intro d. rewrite H1, A4. unfold add. destruct (Z.eqb_spec d d0) as [->|]; auto. rewrite map_app. cbn [map]. rewrite F. auto.
  - intros d p H. rewrite H2. apply in_add in H. destruct H as [H|[-> ->]]; [destruct (A1 _ _ H); assert (ph d p =? N = false) as -> by lia; auto|]. rewrite F, Z.eqb_refl. auto.
Qed.
Definition creates (d0 : Z) (new : fmesh -> fmesh * ptr) : Prop := forall C D X s' a' z rest, rcv C D X s' a' -> stage d0 C -> K d0 = C d0 ++ z :: rest ->
  exists m' a'', new (sm_m s') = (m', ph d0 z) /\ rcv (add C d0 z) D X (with_m s' m') a''.
Lemma ex_add : forall (C : Z -> list ptr) d0 z N, ph d0 z = N -> forall q, In q (map (ph d0) (add C d0 z d0)) <-> In q (map (ph d0) (C d0)) \/ q = N.
Proof using. intros C d0 z N F q. rewrite add_same, map_app, in_app_iff. cbn [map In]. rewrite F. intuition. Qed.
Ltac nx CT := rewrite (u_next _ _ _ _ CT); unfold add; cbn [Z.eqb Pos.eqb]; unfold ZL; rewrite app_length; cbn [length]; lia.
Ltac old CI CT L := intros; first [eapply L; eauto; fail | idtac].
Lemma lt_ne : forall C D X s' a' d p, ri C D X s' (a_next a') -> In p (C d) -> ph d p <> a_next a'.
Proof using. intros C D X s' a' d p R H. destruct (c_in _ _ _ _ _ R _ _ H). lia. Qed.

Lemma create_v : creates 0 add_v.
Proof using P.
  intros C D X s' a' z rest [CI CT] ST E. destruct (ph_next _ _ _ _ _ _ _ ST CT E) as (F & PS & Hz & NZ).
  pose proof (reach_inv _ _ (u_reach _ _ _ _ CT)) as I. destruct (reach_step _ _ TNewV (u_reach _ _ _ _ CT) Logic.I) as (t1 & S1 & R1). cbn [tstep] in S1. inversion S1 as [S1']. clear S1.
  unfold add_v, new_v. unfold sm_t in *. unfold MV_New in *. cbn [fst] in S1'. cbv beta iota zeta in *. rewrite (i_n _ _ I) in *. set (N := a_next a') in *.
  eexists. exists (astep a' TNewV). split; [rewrite F; reflexivity|]. constructor.
  - change (a_next (astep a' TNewV)) with (N + 1). eapply ri_new; try eassumption; try reflexivity; cbn [sm_m with_m fm_id set_id].
    + intro d. unfold kind. cbn [fm_v fm_e fm_f fm_r set_id]. destruct (Z.eqb_spec d 0) as [->|]; auto.
    + intro q. unfold zupd. change (fm_v (sm_m s')) with (kind (sm_m s') 0). rewrite (c_kind _ _ _ _ _ CI). unfold ZL. rewrite map_length, PS. auto.
  - unfold sm_t. cbn [sm_m with_m fm_t set_id]. rewrite S1'. constructor.
    + exact R1.
    + change (a_next (astep a' TNewV)) with (N + 1). unfold N. nx CT.
    + intro q. rewrite (ex_add _ _ _ _ F), <- (u_v _ _ _ _ CT). unfold live_v. cbn [astep bump a_v with_v]. unfold upd. fold N. destruct (Z.eqb_spec q N); intuition.
    + exact (u_e _ _ _ _ CT).
    + exact (u_f _ _ _ _ CT).
    + exact (u_r _ _ _ _ CT).
    + exact (u_ends _ _ _ _ CT).
    + exact (u_ends0 _ _ _ _ CT).
    + exact (u_loop _ _ _ _ CT).
    + exact (u_loop0 _ _ _ _ CT).
    + exact (u_faces _ _ _ _ CT).
    + exact (u_faces0 _ _ _ _ CT).
Qed.
Lemma create_e : creates 1 add_e.
Proof using P.
  intros C D X s' a' z rest [CI CT] ST E. destruct (ph_next _ _ _ _ _ _ _ ST CT E) as (F & PS & Hz & NZ).
  pose proof (reach_inv _ _ (u_reach _ _ _ _ CT)) as I. destruct (reach_step _ _ TNewE (u_reach _ _ _ _ CT) Logic.I) as (t1 & S1 & R1). cbn [tstep] in S1. inversion S1 as [S1']. clear S1.
  unfold add_e, new_e. unfold sm_t in *. unfold ME_New in *. cbn [fst] in S1'. cbv beta iota zeta in *. rewrite (i_n _ _ I) in *. set (N := a_next a') in *.
  assert (O : forall p, In p (C 1) -> a_e (astep a' TNewE) (ph 1 p) = a_e a' (ph 1 p)).
  { intros p H. pose proof (lt_ne _ _ _ _ _ _ _ CI H) as Q. cbn [astep bump a_e with_e]. unfold upd. fold N. fold N in Q. destruct (Z.eqb_spec (ph 1 p) N); congruence. }
  assert (O1 : a_e (astep a' TNewE) N = Some (true, (NULL, NULL))) by (cbn [astep bump a_e with_e]; unfold upd; fold N; rewrite Z.eqb_refl; auto).
  eexists. exists (astep a' TNewE). split; [rewrite F; reflexivity|]. constructor.
  - change (a_next (astep a' TNewE)) with (N + 1). eapply ri_new; try eassumption; try reflexivity; cbn [sm_m with_m fm_id set_id].
    + intro d. unfold kind. cbn [fm_v fm_e fm_f fm_r set_id]. destruct (Z.eqb_spec d 1) as [->|]; auto.
    + intro q. unfold zupd. change (fm_e (sm_m s')) with (kind (sm_m s') 1). rewrite (c_kind _ _ _ _ _ CI). unfold ZL. rewrite map_length, PS. auto.
  - unfold sm_t. cbn [sm_m with_m fm_t set_id]. rewrite S1'. constructor.
    + exact R1.
    + change (a_next (astep a' TNewE)) with (N + 1). unfold N. nx CT.
    + exact (u_v _ _ _ _ CT).
    + intro q. rewrite (ex_add _ _ _ _ F), <- (u_e _ _ _ _ CT). unfold live_e. destruct (Z.eq_dec q N) as [->|Q]; [rewrite O1; split; [auto|eauto]|]. cbn [astep bump a_e with_e]. unfold upd. fold N. destruct (Z.eqb_spec q N); intuition.
    + exact (u_f _ _ _ _ CT).
    + exact (u_r _ _ _ _ CT).
    + intros e v0 v1 He A. rewrite O by (eapply c_sub; eauto). eapply u_ends; eauto.
    + intros e He Q. apply in_add in He. destruct He as [He|[_ ->]]; [rewrite O by auto; eapply u_ends0; eauto|]. rewrite F. auto.
    + exact (u_loop _ _ _ _ CT).
    + exact (u_loop0 _ _ _ _ CT).
    + exact (u_faces _ _ _ _ CT).
    + exact (u_faces0 _ _ _ _ CT).
Qed.
Lemma create_f : creates 2 add_f.
Proof using P.
  intros C D X s' a' z rest [CI CT] ST E. destruct (ph_next _ _ _ _ _ _ _ ST CT E) as (F & PS & Hz & NZ).
  pose proof (reach_inv _ _ (u_reach _ _ _ _ CT)) as I. destruct (reach_step _ _ TNewF (u_reach _ _ _ _ CT) Logic.I) as (t1 & S1 & R1). cbn [tstep] in S1. inversion S1 as [S1']. clear S1.
  unfold add_f, new_f. unfold sm_t in *. unfold MF_New in *. cbn [fst] in S1'. cbv beta iota zeta in *. rewrite (i_n _ _ I) in *. set (N := a_next a') in *.
  assert (O : forall p, In p (C 2) -> a_f (astep a' TNewF) (ph 2 p) = a_f a' (ph 2 p)).
  { intros p H. pose proof (lt_ne _ _ _ _ _ _ _ CI H) as Q. cbn [astep bump a_f with_f]. unfold upd. fold N. fold N in Q. destruct (Z.eqb_spec (ph 2 p) N); congruence. }
  assert (O1 : a_f (astep a' TNewF) N = Some (true, None)) by (cbn [astep bump a_f with_f]; unfold upd; fold N; rewrite Z.eqb_refl; auto).
  eexists. exists (astep a' TNewF). split; [rewrite F; reflexivity|]. constructor.
  - change (a_next (astep a' TNewF)) with (N + 1). eapply ri_new; try eassumption; try reflexivity; cbn [sm_m with_m fm_id set_id].
    + intro d. unfold kind. cbn [fm_v fm_e fm_f fm_r set_id]. destruct (Z.eqb_spec d 2) as [->|]; auto.
    + intro q. unfold zupd. change (fm_f (sm_m s')) with (kind (sm_m s') 2). rewrite (c_kind _ _ _ _ _ CI). unfold ZL. rewrite map_length, PS. auto.
  - unfold sm_t. cbn [sm_m with_m fm_t set_id]. rewrite S1'. constructor.
    + exact R1.
    + change (a_next (astep a' TNewF)) with (N + 1). unfold N. nx CT.
    + exact (u_v _ _ _ _ CT).
    + exact (u_e _ _ _ _ CT).
    + intro q. rewrite (ex_add _ _ _ _ F), <- (u_f _ _ _ _ CT). unfold live_f. destruct (Z.eq_dec q N) as [->|Q]; [rewrite O1; split; [auto|eauto]|]. cbn [astep bump a_f with_f]. unfold upd. fold N. destruct (Z.eqb_spec q N); intuition.
    + exact (u_r _ _ _ _ CT).
    + exact (u_ends _ _ _ _ CT).
    + exact (u_ends0 _ _ _ _ CT).
    + intros e b He A. rewrite O by (eapply c_sub; eauto). eapply u_loop; eauto.
    + intros e He Q. apply in_add in He. destruct He as [He|[_ ->]]; [rewrite O by auto; eapply u_loop0; eauto|]. rewrite F. auto.
    + exact (u_faces _ _ _ _ CT).
    + exact (u_faces0 _ _ _ _ CT).
Qed.
Lemma create_r : creates 3 add_r.
Proof using P.
  intros C D X s' a' z rest [CI CT] ST E. destruct (ph_next _ _ _ _ _ _ _ ST CT E) as (F & PS & Hz & NZ).
  pose proof (reach_inv _ _ (u_reach _ _ _ _ CT)) as I. destruct (reach_step _ _ TNewR (u_reach _ _ _ _ CT) Logic.I) as (t1 & S1 & R1). cbn [tstep] in S1. inversion S1 as [S1']. clear S1.
  unfold add_r, new_r. unfold sm_t in *. unfold MR_New in *. cbn [fst] in S1'. cbv beta iota zeta in *. rewrite (i_n _ _ I) in *. set (N := a_next a') in *.
  assert (O : forall p, In p (C 3) -> a_r (astep a' TNewR) (ph 3 p) = a_r a' (ph 3 p)).
  { intros p H. pose proof (lt_ne _ _ _ _ _ _ _ CI H) as Q. cbn [astep bump a_r with_r]. unfold upd. fold N. fold N in Q. destruct (Z.eqb_spec (ph 3 p) N); congruence. }
  assert (O1 : a_r (astep a' TNewR) N = Some (true, None)) by (cbn [astep bump a_r with_r]; unfold upd; fold N; rewrite Z.eqb_refl; auto).
  eexists. exists (astep a' TNewR). split; [rewrite F; reflexivity|]. constructor.
  - change (a_next (astep a' TNewR)) with (N + 1). eapply ri_new; try eassumption; try reflexivity; cbn [sm_m with_m fm_id set_id].
    + intro d. unfold kind. cbn [fm_v fm_e fm_f fm_r set_id]. destruct (Z.eqb_spec d 3) as [->|]; auto.
    + intro q. unfold zupd. change (fm_r (sm_m s')) with (kind (sm_m s') 3). rewrite (c_kind _ _ _ _ _ CI). unfold ZL. rewrite map_length, PS. auto.
  - unfold sm_t. cbn [sm_m with_m fm_t set_id]. rewrite S1'. constructor.
    + exact R1.
    + change (a_next (astep a' TNewR)) with (N + 1). unfold N. nx CT.
    + exact (u_v _ _ _ _ CT).
    + exact (u_e _ _ _ _ CT).
    + exact (u_f _ _ _ _ CT).
    + intro q. rewrite (ex_add _ _ _ _ F), <- (u_r _ _ _ _ CT). unfold live_r. destruct (Z.eq_dec q N) as [->|Q]; [rewrite O1; split; [auto|eauto]|]. cbn [astep bump a_r with_r]. unfold upd. fold N. destruct (Z.eqb_spec q N); intuition.
    + exact (u_ends _ _ _ _ CT).
    + exact (u_ends0 _ _ _ _ CT).
    + exact (u_loop _ _ _ _ CT).
    + exact (u_loop0 _ _ _ _ CT).
    + intros e b He A. rewrite O by (eapply c_sub; eauto). eapply u_faces; eauto.
    + intros e He Q. apply in_add in He. destruct He as [He|[_ ->]]; [rewrite O by auto; eapply u_faces0; eauto|]. rewrite F. auto.
Qed.
Lemma add_many_ok : forall d0 new C D X s' a', creates d0 new -> rcv C D X s' a' -> stage d0 C -> C d0 = [] ->
  exists C' m' a'', add_many new (sm_m s') (ZL (K d0)) = (m', map (ph d0) (K d0)) /\ rcv C' D X (with_m s' m') a'' /\ stage (d0 + 1) C' /\ C' (d0 + 1) = [] /\ (forall d, C' d = if d =? d0 then K d0 else C d).
Proof using P.
  intros d0 new C D X s' a' CR R ST E0.
  assert (G : forall rest C s' a', rcv C D X s' a' -> stage d0 C -> K d0 = C d0 ++ rest -> exists C' m' a'',
    fold_left (fun st (_ : Z) => let '(m, l) := st in let '(m, p) := new m in (m, l ++ [p])) (zrange (ZL (C d0)) (ZL (K d0))) (sm_m s', map (ph d0) (C d0)) = (m', map (ph d0) (K d0)) /\
    rcv C' D X (with_m s' m') a'' /\ stage d0 C' /\ (forall d, C' d = if d =? d0 then K d0 else C d)).
  { clear C s' a' R ST E0. induction rest as [|z rest IH]; intros C s' a' R ST E.
    - rewrite app_nil_r in E. rewrite zrange_nil by (rewrite E; lia). exists C, (sm_m s'), a'. cbn [fold_left]. rewrite E. split; auto. split; [destruct s'; exact R|]. split; auto. intro d. destruct (Z.eqb_spec d d0) as [->|]; auto.
    - destruct (CR C D X s' a' z rest R ST E) as (m1 & a1 & E1 & R1). rewrite zrange_cons by (rewrite E; unfold ZL; rewrite app_length; cbn [length]; lia). cbn [fold_left]. rewrite E1.
      destruct (IH (add C d0 z) (with_m s' m1) a1 R1 (stage_add _ _ _ _ ST)) as (C' & m2 & a2 & E2 & R2 & S2 & Q2); [rewrite add_same, <- app_assoc; auto|].
      exists C', m2, a2. rewrite add_same in E2. replace (ZL (C d0 ++ [z])) with (ZL (C d0) + 1) in E2 by (unfold ZL; rewrite app_length; cbn [length]; lia). rewrite map_app in E2. cbn [map] in E2.
      split; [exact E2|]. split; [exact R2|]. split; auto. intro d. rewrite Q2. destruct (Z.eqb_spec d d0) as [->|N]; auto. apply add_other. auto. }
  destruct (G (K d0) C s' a' R ST) as (C' & m' & a'' & E & R' & S' & Q); [rewrite E0; auto|]. exists C', m', a''. rewrite E0 in E. split; [exact E|]. split; auto.
  destruct (stage_next (m0 s) d0 C' S') as [S1 S2]; [rewrite Q, Z.eqb_refl; auto|]. auto.
Qed.

(** ** Filling *)
Lemma ph_inj : forall d p d' p', In p (K d) -> In p' (K d') -> ph d p = ph d' p' -> d = d' /\ p = p'.
Proof using. exact (phi_inj (m0 s)). Qed.
Lemma ri_aux : forall C D X s' N d0 z bd x y g, ri C D X s' N -> In z (C d0) -> ~ In z (D d0) -> bd = (d0 <? 3) -> auxl s bd z = [x; y; g] ->
  ri C (add D d0 z) X (r_aux s' bd (ph d0 z) x y g) N.
Proof using P.
  intros C D X s' N d0 z bd x y g R Hz NZ -> A. destruct R as [A1 A2 A3 A4 A5 A6 A7 A8 A9 A10 A11]. destruct (A1 _ _ Hz) as [Kz Nz].
  destruct (sd_class _ _ _ P _ _ Kz) as [C1 C2]. destruct (sd_par _ _ _ P _ _ Kz) as [P1 P2].
  assert (NE : forall d p, In p (D d) -> ph d p <> ph d0 z) by (intros d p H Q; apply ph_inj in Q; [destruct Q as [-> ->]; auto|apply A1; auto|auto]).
  unfold auxl in A. inversion A as [[X1 Y1 G1]]. clear A. unfold r_aux. constructor; cbn [sm_m sm_p sm_sets set_info fm_id fm_c fm_x fm_atts]; auto.
  - intros d p H. apply in_add in H. destruct H as [H|[-> ->]]; auto.
  - intros d p H. unfold zupd. destruct (Z.eqb_spec (ph d p) (ph d0 z)) as [Q|Q]; [rewrite <- Q|]; auto.
  - intros d p H. apply in_add in H. unfold zupd. destruct H as [H|[-> ->]].
    + destruct (Z.eqb_spec (ph d p) (ph d0 z)) as [Q|Q]; [destruct (NE _ _ H Q)|auto].
    + rewrite Z.eqb_refl. cbn [fst snd]. rewrite low3, high3 by lia. rewrite mod_small3 by lia. destruct (fm_c (sm_m s) z); auto.
  - intros d p H. apply in_add in H. unfold zupd. destruct H as [H|[-> ->]].
    + destruct (Z.eqb_spec (ph d p) (ph d0 z)) as [Q|Q]; [destruct (NE _ _ H Q)|auto].
    + rewrite Z.eqb_refl. unfold pout. cbn zeta. rewrite low2, bit2 by auto. rewrite high3 by (destruct ((d0 <? 3) && pi_bdry (sm_p s z)); cbn [b2z]; lia).
      rewrite !Z.mod_small by lia. rewrite (A8 (ph d0 z)) by auto. f_equal. destruct (d0 <? 3), (pi_bdry (sm_p s z)); auto.
  - intros q H. unfold zupd. destruct (Z.eqb_spec q (ph d0 z)) as [->|Q].
    + exfalso. eapply H; [apply in_add; right; split; reflexivity|reflexivity].
    + apply A8. intros d p Hp. apply H. apply in_add. auto.
Qed.
Lemma rt_ext : forall C D C' D' t a', rt C D t a' -> (forall d, C' d = C d) -> (forall d, D' d = D d) -> rt C' D' t a'.
Proof using. intros C D C' D' t a' [] HC HD. constructor; intros; rewrite ?HC, ?HD in *; auto. Qed.
Lemma rt_v : forall C D t a' z, rt C D t a' -> rt C (add D 0 z) t a'.
Proof using. intros C D t a' z []. constructor; auto. Qed.
Lemma lent_dn : forall d0 dn z rest l, K d0 = dn ++ z :: rest -> l = map (ph d0) (K d0) -> lent l (ZL dn) = Ok (ph d0 z).
Proof using.
  intros d0 dn z rest l E ->. unfold lent, ZL. assert (Z.of_nat (length dn) <? 0 = false) as -> by lia. f_equal. rewrite E, map_app, Nat2Z.id, app_nth2 by (rewrite map_length; lia). rewrite map_length, Nat.sub_diag. auto.
Qed.
Lemma fresh_in : forall d0 (dn : list ptr) z rest, K d0 = dn ++ z :: rest -> ~ In z dn.
Proof using P. intros d0 dn z rest E Q. pose proof (sd_nd _ _ _ P d0) as ND. rewrite E in ND. apply NoDup_remove_2 in ND. apply ND, in_or_app. auto. Qed.
Lemma mid_in : forall d0 dn z rest, K d0 = dn ++ z :: rest -> In z (K d0).
Proof using. intros d0 dn z rest ->. apply in_or_app. right. left. auto. Qed.
Definition upto (n : Z) : Z -> list ptr := fun d => if d <? n then K d else [].
Lemma stage0 : stage 0 (fun _ => []).
Proof using. split; intros d H; auto. unfold kind. assert (d =? 0 = false) as -> by lia. assert (d =? 1 = false) as -> by lia. assert (d =? 2 = false) as -> by lia. assert (d =? 3 = false) as -> by lia. auto. Qed.

Lemma r_vertices_ok : forall q, exists C D s' a', r_vertices empty_smesh (ZL (K 0)) (MInts (flat_map (auxl s true) (K 0)) :: q) = Ok (s', q) /\
  rcv C D [] s' a' /\ stage 1 C /\ C 1 = [] /\ C 0 = K 0 /\ D 0 = K 0 /\ (forall d, d <> 0 -> D d = []).
Proof using P.
  intro q. unfold r_vertices. destruct (sd_size _ _ _ P) as (S0 & _). rewrite ck32_ok by (unfold ZL in *; lia). cbn [bind recv_ints].
  rewrite (flat_length _ _ _ 3) by reflexivity. assert (Z.of_nat (3 * length (K 0)) <=? 3 * ZL (K 0) = true) as -> by (unfold ZL; lia). cbn [bind].
  destruct (add_many_ok 0 add_v _ _ _ _ _ create_v rcv0 stage0 eq_refl) as (C & m' & a' & E & R & S1 & S2 & EC). cbn [sm_m empty_smesh]. cbn [sm_m empty_smesh] in E. rewrite E. cbn [fst].
  edestruct (list_loop ptr smesh (fun dn s' => exists D, rcv C D [] s' a' /\ D 0 = dn /\ (forall d, d <> 0 -> D d = []))) with (full := K 0) as (s' & EL & D & RD & D0 & D1).
  3: { change (zrange 0 (ZL (K 0))) with (zrange 0 (Z.of_nat (length (K 0)))). rewrite EL. cbn [bind]. exists C, D, s', a'. split; [reflexivity|]. split; auto. split; auto. split; auto. split; [rewrite EC; auto|auto]. }
  2: { exists (fun _ => []). split; [exact R|auto]. }
  intros dn z rest s' Ek (D & [RI RT] & D0 & D1). change (Z.of_nat (length dn)) with (ZL dn).
  assert (KV : fm_v (sm_m s') = map (ph 0) (K 0)) by (change (fm_v (sm_m s')) with (kind (sm_m s') 0); rewrite (c_kind _ _ _ _ _ RI), EC; auto).
  rewrite (lent_dn 0 dn z rest _ Ek KV). cbn [bind]. rewrite Ek, flat_map_app. cbn [flat_map].
  assert (L3 : 3 * ZL dn = Z.of_nat (length (flat_map (auxl s true) dn))) by (rewrite (flat_length _ _ _ 3) by reflexivity; unfold ZL; lia).
  assert (Ea : exists x y g, auxl s true z = [x; y; g]) by (unfold auxl; eauto). destruct Ea as (x & y & g & Ea).
  rewrite (rda_mid0 _ _ _ _ _ x L3) by (rewrite ?Ea; auto). cbn [bind]. rewrite (rda_mid _ _ _ _ _ 1 y L3) by (rewrite ?Ea; auto; lia). cbn [bind]. rewrite (rda_mid _ _ _ _ _ 2 g L3) by (rewrite ?Ea; auto; lia). cbn [bind].
  assert (Lz : live_v a' (ph 0 z)) by (apply (u_v _ _ _ _ RT); rewrite EC; cbn [Z.eqb]; apply in_map; eapply mid_in; eauto).
  destruct (get_v _ _ (ph 0 z) (reach_inv _ _ (u_reach _ _ _ _ RT)) ltac:(unfold live_v in Lz; congruence)) as (vr & Ev & _). unfold getv. rewrite Ev. cbn [bind].
  eexists. split; [reflexivity|]. exists (add D 0 z). split; [|split; [rewrite add_same, D0; auto|intros d N; rewrite add_other by auto; auto]]. constructor.
  - apply ri_aux; auto. + rewrite EC. cbn [Z.eqb]. eapply mid_in; eauto. + rewrite D0. eapply fresh_in; eauto.
  - apply rt_v. exact RT.
Qed.
Lemma r_coords_ok : forall C D s' a' q, rcv C D [] s' a' -> C 0 = K 0 -> exists s'', r_coords s' (ZL (K 0)) (MDbls (flat_map (xyz s) (K 0)) :: q) = Ok (s'', q) /\ rcv C D (K 0) s'' a'.
Proof using P.
  intros C D s' a' q R EC. unfold r_coords. cbn [recv_dbls]. assert (L1 : forall v, length (xyz s v) = 3%nat) by (intro v; unfold xyz; destruct (fm_x (sm_m s) v) as [[? ?] ?]; auto).
  rewrite (flat_length _ _ _ 3) by auto. assert (Z.of_nat (3 * length (K 0)) <=? 3 * ZL (K 0) = true) as -> by (unfold ZL; lia). cbn [bind].
  edestruct (list_loop ptr smesh (fun dn s' => rcv C D dn s' a')) with (full := K 0) as (s'' & EL & RD).
  3: { change (zrange 0 (ZL (K 0))) with (zrange 0 (Z.of_nat (length (K 0)))). rewrite EL. cbn [bind]. exists s''. auto. }
  2: exact R.
  clear s' R. intros dn z rest s' Ek [RI RT]. change (Z.of_nat (length dn)) with (ZL dn).
  assert (KV : fm_v (sm_m s') = map (ph 0) (K 0)) by (change (fm_v (sm_m s')) with (kind (sm_m s') 0); rewrite (c_kind _ _ _ _ _ RI), EC; auto).
  rewrite (lent_dn 0 dn z rest _ Ek KV). cbn [bind]. rewrite Ek, flat_map_app. cbn [flat_map].
  assert (L3 : 3 * ZL dn = Z.of_nat (length (flat_map (xyz s) dn))) by (rewrite (flat_length _ _ _ 3) by auto; unfold ZL; lia).
  destruct (fm_x (sm_m s) z) as [[x y] g] eqn:Ex. assert (Ea : xyz s z = [x; y; g]) by (unfold xyz; rewrite Ex; auto).
  rewrite (rda_mid0 _ _ _ _ _ x L3) by (rewrite ?Ea; auto). cbn [bind]. rewrite (rda_mid _ _ _ _ _ 1 y L3) by (rewrite ?Ea; auto; lia). cbn [bind]. rewrite (rda_mid _ _ _ _ _ 2 g L3) by (rewrite ?Ea; auto; lia). cbn [bind].
  assert (Cz : In z (C 0)) by (rewrite EC; eapply mid_in; eauto).
  assert (Lz : live_v a' (ph 0 z)) by (apply (u_v _ _ _ _ RT); apply in_map; auto).
  destruct (get_v _ _ (ph 0 z) (reach_inv _ _ (u_reach _ _ _ _ RT)) ltac:(unfold live_v in Lz; congruence)) as (vr & Ev & _). unfold getv. rewrite Ev. cbn [bind].
  eexists. split; [reflexivity|]. constructor; [|exact RT]. destruct RI as [A1 A2 A3 A4 A5 A6 A7 A8 A9 A10 A11]. constructor; cbn [sm_m sm_p sm_sets with_m set_x fm_id fm_c fm_x fm_atts]; auto.
  - intros p H. apply in_app_or in H. destruct H as [H|[<- | []]]; auto.
  - intros p H. unfold zupd. apply in_app_or in H. destruct (Z.eqb_spec (ph 0 p) (ph 0 z)) as [Q|Q].
    + assert (p = z) as -> by (apply ph_inj in Q; [tauto|destruct H as [H|[<- | []]]; apply A1; auto|apply A1; auto]). auto.
    + destruct H as [H|[<- | []]]; [auto|congruence].
Qed.
End Receive.
