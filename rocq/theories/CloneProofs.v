(** Copying the entities of a mesh. *)
From Coq Require Import ZArith Bool Ascii String Floats.SpecFloat List Lia Arith ZifyBool ZifyNat.
From Verif Require Import Base BaseProofs ListSpec AttModel AttProps TopoModel TopoSpec TopoProofs TopoProofs2 TopoProofs3 TopoProofs5 TopoProps ParModel SortModel BuildProofs3 FileModel FileSpec FileProofs FileProofs2 FileProofs3 FileProofs4 SendModel SendSpec SendProofs SendProofs2 SendProofs3 SendProofs4 PartModel CopyModel CloneModel CloneSpec.
Import ListNotations.
Open Scope Z_scope.

Lemma b2z_bit : forall b, b2z b = if b then 1 else 0.
Proof. destruct b; auto. Qed.
Section Clone.
Variables (s : smesh) (f : ptr -> Z) (a : amesh).
Notation s0 := (set_ids s f).
Hypothesis P : outgoing s0 a false.
Notation K := (skind s).
Notation ph := (phi (m0 s0)).
Notation mb := (mapb (m0 s0)).

Lemma one_kind : forall d d' p, In p (K d) -> In p (K d') -> d = d'.
Proof using P.
  intros d d' p H H'. pose proof (reach_sep _ _ (sd_reach _ _ _ P)) as W.
  assert (forall d d', d < d' -> In p (K d) -> In p (K d') -> False).
  { clear d d' H H'. intros d d' L H H'. change (K d) with (skind s0 d) in H. change (K d') with (skind s0 d') in H'. destruct (kind_cases _ _ _ H) as [-> | [-> | [-> | ->]]]; destruct (kind_cases _ _ _ H') as [-> | [-> | [-> | ->]]]; try lia;
    repeat match goal with Q : In p (skind s0 0) |- _ => apply (sd_v _ _ _ P) in Q; unfold live_v in Q | Q : In p (skind s0 1) |- _ => apply (sd_e _ _ _ P) in Q; destruct Q as [? Q] | Q : In p (skind s0 2) |- _ => apply (sd_f _ _ _ P) in Q; destruct Q as [? Q] | Q : In p (skind s0 3) |- _ => apply (sd_r _ _ _ P) in Q; destruct Q as [? Q] end;
    first [destruct (p_v _ W p) as (_ & A1 & A2 & A3); [congruence|congruence] | destruct (p_e _ W p) as (_ & A1 & A2); [congruence|congruence] | destruct (p_f _ W p) as (_ & A1); [congruence|congruence]]. }
  destruct (Z.lt_trichotomy d d') as [L|[L|L]]; auto; exfalso; eauto.
Qed.

(** ** Data of one entity *)
Lemma ri_info : forall C D X s' N d0 z s'', ri s0 C D X s' N -> In z (C d0) -> ~ In z (D d0) ->
  (forall d, kind (sm_m s'') d = kind (sm_m s') d) -> fm_id (sm_m s'') = fm_id (sm_m s') -> fm_x (sm_m s'') = fm_x (sm_m s') -> fm_atts (sm_m s'') = fm_atts (sm_m s') -> sm_sets s'' = sm_sets s' ->
  fm_c (sm_m s'') = zupd (fm_c (sm_m s')) (ph d0 z) (fst (fm_c (sm_m s) z) mod 2 ^ 3, snd (fm_c (sm_m s) z) mod 2 ^ 26) ->
  sm_p s'' = zupd (sm_p s') (ph d0 z) (mkPI (pi_ptype (sm_p s z) mod 2 ^ 2) (if (d0 <? 3) && pi_bdry (sm_p s z) then true else pi_bdry (sm_p s' (ph d0 z))) (pi_master (sm_p s z) mod 2 ^ 29) (pi_gid (sm_p s z))) ->
  ri s0 C (add D d0 z) X s'' N.
Proof using P.
  intros C D X s' N d0 z s'' R Hz NZ H1 H2 H3 H4 H5 H6 H7. destruct R as [A1 A2 A3 A4 A5 A6 A7 A8 A9 A10 A11]. destruct (A1 _ _ Hz) as [Kz Nz].
  destruct (sd_class _ _ _ P _ _ Kz) as [C1 C2]. destruct (sd_par _ _ _ P _ _ Kz) as [P1 P2]. cbn [set_ids sm_m fm_c sm_p] in C1, C2, P1, P2.
  assert (NE : forall d p, In p (D d) -> ph d p <> ph d0 z) by (intros d p H Q; apply (ph_inj s0) in Q; [destruct Q as [-> ->]; auto|apply A1; auto|auto]).
  constructor; rewrite ?H2, ?H3, ?H4, ?H5, ?H6, ?H7; auto.
  - intros d p H. apply in_add in H. destruct H as [H|[-> ->]]; auto.
  - intro d. rewrite H1. auto.
  - intros d p H. apply in_add in H. unfold zupd. destruct H as [H|[-> ->]].
    + destruct (Z.eqb_spec (ph d p) (ph d0 z)) as [Q|Q]; [destruct (NE _ _ H Q)|auto].
    + rewrite Z.eqb_refl. rewrite !Z.mod_small by lia. cbn [set_ids sm_m fm_c]. destruct (fm_c (sm_m s) z); auto.
  - intros d p H. apply in_add in H. unfold zupd. destruct H as [H|[-> ->]].
    + destruct (Z.eqb_spec (ph d p) (ph d0 z)) as [Q|Q]; [destruct (NE _ _ H Q)|auto].
    + rewrite Z.eqb_refl. unfold pout. cbn zeta. cbn [set_ids sm_p]. rewrite !Z.mod_small by lia. rewrite (A8 (ph d0 z)) by auto. f_equal. destruct (d0 <? 3), (pi_bdry (sm_p s z)); auto.
  - intros q H. unfold zupd. destruct (Z.eqb_spec q (ph d0 z)) as [->|Q].
    + exfalso. eapply H; [apply in_add; right; split; reflexivity|reflexivity].
    + apply A8. intros d p Hp. apply H. apply in_add. auto.
Qed.

(** ** The copy so far: the entities of [C] *)
Definition cpd (C : Z -> list ptr) (st : clone) : Prop := exists idf a', rcv s0 a C C (C 0) (set_ids (fst st) idf) a' /\
  (forall d p, In p (C d) -> fm_id (sm_m (fst st)) (ph d p) = fm_id (sm_m s) p) /\ (forall d p, In p (C d) -> snd st p = ph d p).
Lemma cpd_in : forall C st d p, cpd C st -> In p (C d) -> In p (K d).
Proof using. intros C st d p (idf & a' & R & _) H. apply (c_in _ _ _ _ _ _ (v_i _ _ _ _ _ _ _ R)) in H. tauto. Qed.
Lemma cpd0 : cpd (fun _ => []) (empty_smesh, fun _ => NULL).
Proof using.
  exists (fm_id (sm_m empty_smesh)), amesh0. split; [exact (rcv0 s0 a)|]. split; intros d p [].
Qed.
(** New IDs and entries of copyatt. *)
Lemma new_ids : forall C d0 z rest (g h : ptr -> Z), (forall d p, In p (C d) -> In p (K d)) -> K d0 = C d0 ++ z :: rest ->
  (forall d p, In p (C d) -> g (ph d p) = h p) -> forall d p, In p (add C d0 z d) -> zupd g (ph d0 z) (h z) (ph d p) = h p.
Proof using.
  intros C d0 z rest g h IC E G d p H. pose proof (mid_in s d0 _ _ _ E) as Kz. unfold zupd. apply in_add in H. destruct H as [H|[-> ->]]; [|rewrite Z.eqb_refl; auto].
  destruct (Z.eqb_spec (ph d p) (ph d0 z)) as [Q|Q]; auto. apply (ph_inj s0) in Q; [destruct Q as [-> ->]; auto|apply (IC _ _ H)|exact Kz].
Qed.
Lemma new_cp : forall C d0 z rest (cp : ptr -> ptr), (forall d p, In p (C d) -> In p (K d)) -> K d0 = C d0 ++ z :: rest ->
  (forall d p, In p (C d) -> cp p = ph d p) -> forall d p, In p (add C d0 z d) -> zupd cp z (ph d0 z) p = ph d p.
Proof using P.
  intros C d0 z rest cp IC E G d p H. pose proof (mid_in s d0 _ _ _ E) as Kz. unfold zupd. apply in_add in H. destruct H as [H|[-> ->]]; [|rewrite Z.eqb_refl; auto].
  destruct (Z.eqb_spec p z) as [->|Q]; auto. rewrite (one_kind d d0 z); auto.
Qed.
Definition clones (d0 : Z) (step : clone -> ptr -> result clone) : Prop := forall C st z rest, stage (m0 s0) d0 C -> K d0 = C d0 ++ z :: rest -> cpd C st -> exists st', step st z = Ok st' /\ cpd (add C d0 z) st'.
Lemma clones_loop : forall d0 step, clones d0 step -> forall C st, stage (m0 s0) d0 C -> C d0 = [] -> cpd C st ->
  exists C' st', foldM step st (K d0) = Ok st' /\ cpd C' st' /\ stage (m0 s0) (d0 + 1) C' /\ C' (d0 + 1) = [].
Proof using P.
  intros d0 step CL. assert (G : forall rest C st, stage (m0 s0) d0 C -> K d0 = C d0 ++ rest -> cpd C st -> exists C' st', foldM step st rest = Ok st' /\ cpd C' st' /\ stage (m0 s0) d0 C' /\ C' d0 = K d0).
  { induction rest as [|z rest IH]; intros C st S E X.
    - rewrite app_nil_r in E. exists C, st. cbn [foldM]. auto.
    - destruct (CL C st z rest S E X) as (st1 & E1 & X1). cbn [foldM]. rewrite E1. cbn [bind]. apply (IH (add C d0 z)); auto. + apply stage_add. auto. + rewrite add_same, <- app_assoc. auto. }
  intros C st S E X. destruct (G (K d0) C st S) as (C' & st' & E1 & X1 & S1 & EC); [rewrite E; auto|auto|]. exists C', st'. split; auto. split; auto. apply stage_next; auto.
Qed.

Lemma vertex_ok : clones 0 (clone_vertex s).
Proof using P.
  intros C [s' cp] z rest S E (idf & a' & R & I1 & I2). cbn [fst snd] in *. pose proof (mid_in s 0 _ _ _ E) as Kz.
  assert (IC : forall d p, In p (C d) -> In p (K d)) by (intros d p H; apply (c_in _ _ _ _ _ _ (v_i _ _ _ _ _ _ _ R)) in H; tauto).
  assert (NZ : ~ In z (C 0)) by (exact (fresh_in s0 a false P 0 (C 0) z rest E)).
  destruct (create_v s0 a false P _ _ _ _ _ _ _ R S E) as (m1 & a1 & E1 & R1). destruct R1 as [RI RT].
  pose proof (proj1 (sd_v _ _ _ P z) Kz) as L. destruct (get_v _ _ z (reach_inv _ _ (sd_reach _ _ _ P)) ltac:(unfold live_v in L; congruence)) as (vr & Ev & _). change (sm_t s0) with (sm_t s) in Ev.
  unfold clone_vertex. destruct s' as [[t c x i v e fa r at'] pi ss]. cbn [set_ids sm_m fm_t fm_c fm_x fm_id fm_v fm_e fm_f fm_r fm_atts sm_p sm_sets] in *.
  unfold add_v, new_v in *. cbn [fm_t fm_c fm_x fm_id fm_v fm_e fm_f fm_r fm_atts set_id] in *. destruct (MV_New t) as [t1 q]. cbn [fm_t fm_c fm_x fm_id fm_v fm_e fm_f fm_r fm_atts set_id] in *. inversion E1. subst m1 q. clear E1.
  unfold getv. rewrite Ev. cbn [bind]. eexists. split; [reflexivity|]. exists (zupd idf (ph 0 z) (ZL v + 1)), a1. cbn [fst snd clone_info with_m set_x set_info sm_m sm_p sm_sets fm_t fm_c fm_x fm_id fm_v fm_e fm_f fm_r fm_atts set_ids]. split; [|split].
  - constructor; [|apply rt_v; exact RT]. 
    match goal with |- ri _ _ _ _ ?s2 _ => apply ri_info with (s' := mkSM (mkFM t1 c (zupd x (ph 0 z) (fm_x (sm_m s) z)) (zupd idf (ph 0 z) (ZL v + 1)) (v ++ [ph 0 z]) e fa r at') pi ss) end; auto.
    + destruct RI as [A1 A2 A3 A4 A5 A6 A7 A8 A9 A10 A11]. constructor; auto; cbn [sm_m fm_x].
      intros p H. unfold zupd. destruct (Z.eqb_spec (ph 0 p) (ph 0 z)) as [Q|Q].
        -- assert (p = z) as -> by (apply (ph_inj s0) in Q; [tauto|exact (proj1 (A1 0 p H))|exact Kz]). auto.
        -- apply in_add in H. destruct H as [H|[_ ->]]; [|congruence]. apply A9. auto.
    + apply in_add. auto.
  - intros d p H. apply (new_ids C 0 z rest (zupd i (ph 0 z) (ZL v + 1)) (fm_id (sm_m s))); auto. intros d' p' H'. rewrite <- (I1 d' p' H'). unfold zupd. destruct (Z.eqb_spec (ph d' p') (ph 0 z)) as [Q|Q]; auto. apply (ph_inj s0) in Q; [destruct Q as [-> ->]; contradiction|apply (IC _ _ H')|exact Kz].
  - apply (new_cp C 0 z rest cp); auto.
Qed.

(** ** Edges, faces and regions *)
Definition fm_ids (m : fmesh) (g : ptr -> Z) : fmesh := mkFM (fm_t m) (fm_c m) (fm_x m) g (fm_v m) (fm_e m) (fm_f m) (fm_r m) (fm_atts m).
Definition same_new (new : fmesh -> fmesh * ptr) : Prop := forall s' idf m1' q, new (sm_m (set_ids s' idf)) = (m1', q) ->
  exists m1, new (sm_m s') = (m1, q) /\ m1' = fm_ids m1 (fm_id m1') /\ (forall p, p <> q -> fm_id m1 p = fm_id (sm_m s') p).
Ltac snew X := intros [[t c x i v e fa r at'] pi ss] idf m1' q H; cbn [set_ids sm_m] in *; cbn [fm_t fm_c fm_x fm_id fm_v fm_e fm_f fm_r fm_atts set_id] in *;
  destruct (X t) as [t1 q1]; cbn [fm_t fm_c fm_x fm_id fm_v fm_e fm_f fm_r fm_atts set_id] in *; inversion H; subst; eexists; split; [reflexivity|]; split; [reflexivity|]; intros p N; cbn [fm_id set_id sm_m]; unfold zupd; destruct (Z.eqb_spec p q); congruence.
Lemma same_e : same_new add_e.
Proof using. unfold same_new, add_e, new_e. snew ME_New. Qed.
Lemma same_f : same_new add_f.
Proof using. unfold same_new, add_f, new_f. snew MF_New. Qed.
Lemma same_r : same_new add_r.
Proof using. unfold same_new, add_r, new_r. snew MR_New. Qed.
Lemma finish : forall C d0 z rest s' cp idf m1 g t2 a2, d0 <> 0 -> K d0 = C d0 ++ z :: rest -> (forall d p, In p (C d) -> In p (K d)) ->
  ri s0 (add C d0 z) C (C 0) (with_m (set_ids s' idf) (fm_ids m1 g)) (a_next a2) -> rt s0 a (add C d0 z) (add C d0 z) t2 a2 ->
  (forall d p, In p (C d) -> fm_id (sm_m s') (ph d p) = fm_id (sm_m s) p) -> (forall p, p <> ph d0 z -> fm_id m1 p = fm_id (sm_m s') p) -> (forall d p, In p (C d) -> cp p = ph d p) ->
  cpd (add C d0 z) (clone_info s (with_m s' (set_ft m1 t2)) (d0 <? 3) z (ph d0 z), zupd cp z (ph d0 z)).
Proof using P.
  intros C d0 z rest s' cp idf m1 g t2 a2 N0 E IC RI RT I1 I3 I2. pose proof (mid_in s d0 _ _ _ E) as Kz.
  assert (NZ : ~ In z (C d0)) by (exact (fresh_in s0 a false P d0 (C d0) z rest E)).
  exists g, a2. cbn [fst snd]. split; [|split].
  - constructor; [|exact RT]. rewrite add_other by auto. eapply ri_info; [exact RI|apply in_add; auto|exact NZ|reflexivity|reflexivity|reflexivity|reflexivity|reflexivity|reflexivity|reflexivity].
  - cbn [clone_info sm_m set_info fm_id with_m set_ft]. apply (new_ids C d0 z rest (fm_id m1) (fm_id (sm_m s))); auto. intros d p H. rewrite I3; auto. intro Q. apply (ph_inj s0) in Q; [destruct Q as [-> ->]; contradiction|apply (IC _ _ H)|exact Kz].
  - apply (new_cp C d0 z rest cp); auto.
Qed.
Lemma edge_ok : clones 1 (clone_edge s).
Proof using P.
  intros C [s' cp] z rest S E (idf & a' & R & I1 & I2). cbn [fst snd] in *. pose proof (mid_in s 1 _ _ _ E) as Kz.
  assert (IC : forall d p, In p (C d) -> In p (K d)) by (intros d p H; apply (c_in _ _ _ _ _ _ (v_i _ _ _ _ _ _ _ R)) in H; tauto).
  assert (NZ : ~ In z (C 1)) by (exact (fresh_in s0 a false P 1 (C 1) z rest E)).
  destruct (create_e s0 a false P _ _ _ _ _ _ _ R S E) as (m1' & a1 & E1 & R1). destruct (same_e _ _ _ _ E1) as (m1 & E2 & F & I3). rewrite F in R1. destruct R1 as [RI RT].
  destruct (eends_ok s0 a false P z Kz) as (v0 & v1 & Ae & _ & K0 & K1). pose proof (reach_inv _ _ (sd_reach _ _ _ P)) as I. change (sm_t s0) with (sm_t s) in I.
  destruct (get_e _ _ z I ltac:(congruence)) as (r & Ee & V). rewrite Ae in V. unfold eview in V. inversion V as [[V1 V2 V3]].
  destruct (get_v _ _ v0 I ltac:(apply (sd_v _ _ _ P) in K0; unfold live_v in K0; congruence)) as (x0 & G0 & _). destruct (get_v _ _ v1 I ltac:(apply (sd_v _ _ _ P) in K1; unfold live_v in K1; congruence)) as (x1 & G1 & _).
  assert (C0 : C 0 = K 0) by (exact (proj1 S 0 ltac:(lia))). assert (AC0 : add C 1 z 0 = skind s0 0) by (rewrite add_other by lia; exact C0).
  destruct (fill_e s0 a false P (add C 1 z) C (fm_t m1) a1 z v0 v1 RT) as (t1 & t2 & a2 & S1 & S2 & R2 & N2); auto.
  { intros d p H. apply in_add in H. destruct H as [H|[-> ->]]; [apply (IC _ _ H)|exact Kz]. } { intros d p H. apply in_add. auto. } { apply in_add. auto. }
  unfold clone_edge. rewrite E2. unfold ME_Vertex, gete. rewrite Ee. cbn [bind]. change (0 =? 0) with true. change (1 =? 0) with false. change (1 =? 1) with true. cbv iota. cbn [bind]. rewrite <- V2, <- V3. unfold getv. rewrite G0. cbn [bind]. rewrite (I2 0 v0) by (rewrite C0; exact K0). rewrite S1. cbn [bind]. rewrite G1. cbn [bind]. rewrite (I2 0 v1) by (rewrite C0; exact K1). rewrite S2. cbn [bind].
  eexists. split; [reflexivity|]. eapply (finish C 1 z rest s' cp idf m1 (fm_id m1') t2 a2); auto; [lia|rewrite N2; exact RI].
Qed.
(** The lists of edges of a face and of faces of a region. *)
Lemma clone_loop_ok : forall room cp get dir l d b, l = map fst b -> (length b <= Z.to_nat room)%nat -> (forall x, In x b -> get (fst x) = Ok tt) -> (forall x, In x b -> cp (fst x) = ph d (fst x)) ->
  (forall k, (k < length b)%nat -> dir (Z.of_nat k) = Ok (b2z (snd (nth k b (NULL, true))))) -> clone_loop room cp get dir l = Ok (map fst (mb d b), dirz (mb d b)).
Proof using.
  intros room cp get dir l d b -> HR HG HC HD. unfold clone_loop.
  edestruct (list_loop (ptr * bool) (list ptr * list Z) (fun dn st => st = (map fst (mb d dn), dirz (mb d dn)))) with (full := b) (st := (@nil ptr, @nil Z)) as (st & E & Q).
  3: { unfold ZL. rewrite map_length. rewrite E, Q. reflexivity. }
  2: reflexivity.
  intros dn [p g] rest st Eb ->. assert (Hx : In (p, g) b) by (rewrite Eb; apply in_or_app; right; left; auto).
  assert (LB : (length dn < length b)%nat) by (rewrite Eb, app_length; cbn [length]; lia).
  unfold lent. assert (Z.of_nat (length dn) <? 0 = false) as -> by lia. cbn [bind]. rewrite Nat2Z.id.
  assert (N1 : nth (length dn) b (NULL, true) = (p, g)) by (rewrite Eb, app_nth2, Nat.sub_diag by lia; auto).
  assert (nth (length dn) (map fst b) NULL = p) as -> by (change NULL with (fst (NULL, true)) at 1; rewrite map_nth, N1; auto).
  assert (room <=? Z.of_nat (length dn) = false) as -> by lia. pose proof (HG _ Hx) as H0. cbn [fst] in H0. rewrite H0. cbn [bind]. rewrite (HD _ LB), N1. cbn [bind snd].
  eexists. split; [reflexivity|]. pose proof (HC _ Hx) as H1. cbn [fst] in H1. rewrite H1. unfold mapb, dirz. rewrite !map_app. reflexivity.
Qed.
Lemma face_ok : clones 2 (clone_face s).
Proof using P.
  intros C [s' cp] z rest S E (idf & a' & R & I1 & I2). cbn [fst snd] in *. pose proof (mid_in s 2 _ _ _ E) as Kz.
  assert (IC : forall d p, In p (C d) -> In p (K d)) by (intros d p H; apply (c_in _ _ _ _ _ _ (v_i _ _ _ _ _ _ _ R)) in H; tauto).
  assert (NZ : ~ In z (C 2)) by (exact (fresh_in s0 a false P 2 (C 2) z rest E)).
  destruct (create_f s0 a false P _ _ _ _ _ _ _ R S E) as (m1' & a1 & E1 & R1). destruct (same_f _ _ _ _ E1) as (m1 & E2 & F & I3). rewrite F in R1. destruct R1 as [RI RT].
  pose proof (face_full _ _ (P0 _ _ _ P) z Kz) as H. set (b := fbdry a z) in *. pose proof (reach_inv _ _ (sd_reach _ _ _ P)) as I. change (sm_t s0) with (sm_t s) in I.
  destruct (inv_full _ _ _ _ I H) as (x & l & Ex & L & El & Eb & ND & LL & _). pose proof (sd_loops _ _ _ P _ _ H) as L30.
  assert (C1 : C 1 = K 1) by (exact (proj1 S 1 ltac:(lia))). assert (AC1 : add C 2 z 1 = skind s0 1) by (rewrite add_other by lia; exact C1).
  destruct (fill_f s0 a false P (add C 2 z) C (fm_t m1) a1 z b RT) as (t1 & a2 & S1 & R2 & N2); auto.
  { intros d p Q. apply in_add in Q. destruct Q as [Q|[-> ->]]; [apply (IC _ _ Q)|exact Kz]. } { intros d p Q. apply in_add. auto. } { apply in_add. auto. }
  unfold clone_face. rewrite E2. unfold MF_Edges, getf. rewrite Ex. cbn [bind nn]. rewrite El. cbn [nn bind]. change (NULL =? NULL) with true. change (1 =? 0) with false. cbv iota. cbn [bind].
  assert (KB : forall y, In y b -> In (fst y) (K 1)) by (intros y Hy; apply (face_edges_in _ _ (P0 _ _ _ P) _ _ H y Hy)).
  rewrite (clone_loop_ok MAXPV2 cp _ (MF_EdgeDir_i (sm_t s) z) l 1 b).
  - cbn [bind]. assert (ZL l = Z.of_nat (length b)) as -> by (rewrite Eb, vw_length; auto). rewrite S1. cbn [bind].
    eexists. split; [reflexivity|]. eapply (finish C 2 z rest s' cp idf m1 (fm_id m1') t1 a2); auto; [lia|rewrite N2; exact RI].
  - rewrite Eb, vw_fst. auto.
  - unfold MAXPV2. lia.
  - intros y Hy. pose proof (proj1 (sd_e _ _ _ P (fst y)) (KB _ Hy)) as [u Lu]. destruct (get_e _ _ (fst y) I ltac:(congruence)) as (r & Er & _). unfold gete. rewrite Er. auto.
  - intros y Hy. apply I2. rewrite C1. auto.
  - intros k Hk. assert (Kl : (k < length l)%nat) by (rewrite Eb, vw_length in Hk; lia).
    unfold MF_EdgeDir_i, getf. rewrite Ex. cbn [bind]. rewrite Eb. rewrite nth_vw by auto. unfold bit64. unfold ZL in LL.
    assert ((0 <=? Z.of_nat k) && (Z.of_nat k <? 64) = true) as -> by lia. f_equal. rewrite Z.land_comm. change 1 with (Z.ones 1) at 1. rewrite Z.land_comm, Z.land_ones by lia.
    rewrite <- Z.bit0_mod. rewrite Z.shiftr_spec by lia. rewrite Z.add_0_l. destruct (Z.testbit _ _); reflexivity.
Qed.
Lemma region_ok : clones 3 (clone_region s).
Proof using P.
  intros C [s' cp] z rest S E (idf & a' & R & I1 & I2). cbn [fst snd] in *. pose proof (mid_in s 3 _ _ _ E) as Kz.
  assert (IC : forall d p, In p (C d) -> In p (K d)) by (intros d p H; apply (c_in _ _ _ _ _ _ (v_i _ _ _ _ _ _ _ R)) in H; tauto).
  assert (NZ : ~ In z (C 3)) by (exact (fresh_in s0 a false P 3 (C 3) z rest E)).
  destruct (create_r s0 a false P _ _ _ _ _ _ _ R S E) as (m1' & a1 & E1 & R1). destruct (same_r _ _ _ _ E1) as (m1 & E2 & F & I3). rewrite F in R1. destruct R1 as [RI RT].
  pose proof (reg_full _ _ (P0 _ _ _ P) z Kz) as H. set (b := rbdry a z) in *. pose proof (reach_inv _ _ (sd_reach _ _ _ P)) as I. change (sm_t s0) with (sm_t s) in I.
  destruct (inv_rfull _ _ _ _ _ I H) as (x & l & Ex & L & El & RR & ND & _). destruct (w_rnd _ (i_w _ _ I) _ _ _ H) as [_ LB]. unfold maxrf in LB.
  assert (C2 : C 2 = K 2) by (exact (proj1 S 2 ltac:(lia))).
  destruct (fill_r s0 a false P (add C 3 z) C (fm_t m1) a1 z b RT) as (t1 & a2 & S1 & R2 & N2); auto.
  { intros d p Q. apply in_add in Q. destruct Q as [Q|[-> ->]]; [apply (IC _ _ Q)|exact Kz]. } { intros d p Q. apply in_add. auto. } { apply in_add. auto. }
  unfold clone_region. rewrite E2. unfold MR_Faces, getr. rewrite Ex. cbn [bind nn]. rewrite El. cbn [nn bind].
  assert (Eb : l = map fst b) by (rewrite <- (rrep_vw _ _ _ RR), vw_fst; auto).
  assert (KB : forall y, In y b -> In (fst y) (K 2)) by (intros y Hy; apply (reg_faces_in _ _ (P0 _ _ _ P) _ _ H y Hy)).
  rewrite (clone_loop_ok MAXPF3 cp _ (MR_FaceDir_i (sm_t s) z) l 2 b); auto.
  - cbn [bind]. rewrite (rrep_len _ _ _ RR). rewrite S1. cbn [bind].
    eexists. split; [reflexivity|]. eapply (finish C 3 z rest s' cp idf m1 (fm_id m1') t1 a2); auto; [lia|rewrite N2; exact RI].
  - intros y Hy. pose proof (proj1 (sd_f _ _ _ P (fst y)) (KB _ Hy)) as [u Lu]. destruct (get_f _ _ (fst y) I ltac:(congruence)) as (r & Er & _). unfold getf. rewrite Er. auto.
  - intros y Hy. apply I2. rewrite C2. auto.
  - intros k Hk. unfold MR_FaceDir_i, getr. rewrite Ex. cbn [bind]. rewrite (rrep_get _ _ _ k RR) by lia. auto.
Qed.

(** ** All entities *)
Lemma entities_ok : exists s' cp a', (st <- foldM (clone_vertex s) (empty_smesh, fun _ => NULL) (K 0) ;; st <- foldM (clone_edge s) st (K 1) ;; st <- foldM (clone_face s) st (K 2) ;; foldM (clone_region s) st (K 3)) = Ok (s', cp) /\
  fm_atts (sm_m s') = [] /\ sm_sets s' = [] /\ mesh_copy false s s' a a' ph /\ (forall d p, In p (K d) -> cp p = ph d p /\ cp p <> NULL).
Proof using P.
  destruct (clones_loop 0 _ vertex_ok _ _ (stage0 s0) eq_refl cpd0) as (C0 & st0 & E0 & X0 & S0 & N0). rewrite E0. cbn [bind].
  destruct (clones_loop 1 _ edge_ok _ _ S0 N0 X0) as (C1 & st1 & E1 & X1 & S1 & N1). rewrite E1. cbn [bind].
  destruct (clones_loop 2 _ face_ok _ _ S1 N1 X1) as (C2 & st2 & E2 & X2 & S2 & N2). rewrite E2. cbn [bind].
  destruct (clones_loop 3 _ region_ok _ _ S2 N2 X2) as (C & [s' cp] & E3 & X3 & S3 & N3). rewrite E3.
  assert (EC : forall d, C d = K d).
  { intro d. destruct (Z_lt_ge_dec d 4) as [L|L]; [exact (proj1 S3 d ltac:(lia))|]. rewrite (K_out s d) by lia. destruct (Z.eq_dec d 4) as [->|]; [exact N3|]. apply (proj2 S3). lia. }
  destruct X3 as (idf & a' & [RI RT] & I1 & I2). cbn [fst snd] in *. exists s', cp, a'. split; [reflexivity|].
  assert (A1 : fm_atts (sm_m s') = []) by exact (c_at _ _ _ _ _ _ RI). assert (A2 : sm_sets s' = []) by exact (c_st _ _ _ _ _ _ RI). split; [exact A1|]. split; [exact A2|].
  assert (CK : forall d, skind s' d = map (ph d) (K d)) by (intro d; change (skind s' d) with (kind (sm_m (set_ids s' idf)) d); rewrite (c_kind _ _ _ _ _ _ RI), EC; auto).
  assert (CI : forall d p, In p (K d) -> In p (C d)) by (intros d p; rewrite EC; auto). split; [constructor; auto|].
  - exact (u_reach _ _ _ _ _ _ RT).
  - apply (ph_inj s0).
  - intro q. rewrite CK, <- EC. apply (u_v _ _ _ _ _ _ RT).
  - intro q. rewrite CK, <- EC. apply (u_e _ _ _ _ _ _ RT).
  - intro q. rewrite CK, <- EC. apply (u_f _ _ _ _ _ _ RT).
  - intro q. rewrite CK, <- EC. apply (u_r _ _ _ _ _ _ RT).
  - intros e v0 v1 H. apply (u_ends _ _ _ _ _ _ RT); auto. apply CI. apply (sd_e _ _ _ P). eexists; eauto.
  - intros g b H. apply (u_loop _ _ _ _ _ _ RT); auto. apply CI. apply (sd_f _ _ _ P). eexists; eauto.
  - intros r b H. apply (u_faces _ _ _ _ _ _ RT); auto. apply CI. apply (sd_r _ _ _ P). eexists; eauto.
  - intros v H. apply (c_x _ _ _ _ _ _ RI). apply CI. auto.
  - intros d p H. apply (c_c _ _ _ _ _ _ RI). apply CI. auto.
  - intros d p H L. change (sm_p s') with (sm_p (set_ids s' idf)). rewrite (c_p _ _ _ _ _ _ RI) by auto. unfold pout. assert (d <? 3 = true) as -> by lia. cbn [set_ids sm_p]. destruct (sm_p s p); auto.
  - intros p H. change (sm_p s') with (sm_p (set_ids s' idf)). rewrite (c_p _ _ _ _ _ _ RI) by auto. reflexivity.
  - intros d p H. rewrite (I2 d p) by auto. split; auto. pose proof (pos_range _ _ H). unfold phi, base. change (kind (m0 s0) d) with (K d). unfold NULL, ZL in *.
    cut (0 <= (if 0 <? d then Z.of_nat (length (fm_v (m0 s0))) else 0) + (if 1 <? d then Z.of_nat (length (fm_e (m0 s0))) else 0) + (if 2 <? d then Z.of_nat (length (fm_f (m0 s0))) else 0)); [lia|]. destruct (0 <? d), (1 <? d), (2 <? d); lia.
Qed.
End Clone.
