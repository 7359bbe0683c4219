(** The invariant under reversal of an edge in a face and replacement of edges. *)
From Coq Require Import ZArith List Lia Bool Arith ZifyBool ZifyNat.
From Verif Require Import Base BaseProofs ListSpec ParModel ParProps AttModel AttProps TopoModel TopoSpec TopoProofs TopoProofs2 TopoProofs3.
Import ListNotations.
Open Scope Z_scope.

Lemma tb_flip : forall w k m, 0 <= k -> 0 <= m -> Z.testbit (Z.lxor w (Z.shiftl 1 k)) m = if m =? k then negb (Z.testbit w m) else Z.testbit w m.
Proof. intros. rewrite Z.lxor_spec, tb_pow by auto. destruct (m =? k). apply xorb_true_r. apply xorb_false_r. Qed.

Lemma step_rev_edge_dir : forall t a f e, inv t a -> tpre a (TRevEdgeDir f e) ->
  exists t', tstep t (TRevEdgeDir f e) = Ok t' /\ inv t' (astep a (TRevEdgeDir f e)).
Proof.
  intros t a f e I (b & Hb). destruct (inv_full _ _ _ _ I Hb) as (x & l & Ex & Lx & El & Eb & N & L & Te). pose proof (i_w _ _ I) as W.
  cbn [tstep astep]. unfold MF_Rev_EdgeDir, getf. rewrite Ex. cbn [bind]. rewrite El. cbn [nn bind].
  assert (Efb : fbdry a f = b) by (unfold fbdry; rewrite Hb; auto). rewrite Efb.
  destruct (foldM_up topo (fun k s => exists w, tvs s = tvs t /\ tes s = tes t /\ trs s = trs t /\ tnext s = tnext t /\
     (forall p, tfs s p = zupd (tfs t) f (Some (set_fedges x w l)) p) /\
     (forall m, 0 <= m -> Z.testbit w m = if (m <? k) && (nth (Z.to_nat m) l NULL =? e) then negb (Z.testbit (f_edirs x) m) else Z.testbit (f_edirs x) m))
    (fun t i => e' <- lent l i ;; (if e' =? e then MF_Rev_EdgeDir_i t f i else Ok t)) 0 (ZL l) t) as (t' & Et & w & A0 & A1 & A2 & A3 & A4 & A5).
  - unfold ZL; lia.
  - exists (f_edirs x). repeat split; auto.
    + intros p. unfold zupd. onz p f; auto. rewrite Ex. f_equal. destruct x; cbn in *; subst; auto.
    + intros m Hm. replace (m <? 0) with false by lia. auto.
  - intros k s Hk (w & A0 & A1 & A2 & A3 & A4 & A5). unfold lent. replace (k <? 0) with false by lia. cbn [bind].
    onz (nth (Z.to_nat k) l NULL) e.
    + unfold MF_Rev_EdgeDir_i, getf. rewrite A4, zupd_same. cbn [bind set_fedges f_edirs f_live f_edges f_r0 f_r1].
      replace ((0 <=? k) && (k <? 64)) with true by (unfold ZL in *; lia). eexists. split; eauto. exists (Z.lxor w (Z.shiftl 1 k)). ra. repeat split; auto.
      * intros p. unfold zupd in *. rewrite A4. onz p f; auto.
      * intros m Hm. rewrite tb_flip by lia. rewrite A5 by lia. onz m k.
        -- replace (k <? k) with false by lia. replace (k <? k + 1) with true by lia. rewrite Z.eqb_refl. auto.
        -- replace (m <? k + 1) with (m <? k) by lia. auto.
    + exists s. split; auto. exists w. repeat split; auto. intros m Hm. rewrite A5 by lia. onz m k.
      * replace (k <? k) with false by lia. replace (k <? k + 1) with true by lia. replace (_ =? e) with false by lia. auto.
      * replace (m <? k + 1) with (m <? k) by lia. auto.
  - rewrite Et. exists t'. split; auto.
    assert (Ed : flip e b = vw l 0 (Z.testbit w)).
    { assert (G : forall l i, 0 <= i -> (forall m, 0 <= m < ZL l -> Z.testbit w (i + m) = if nth (Z.to_nat m) l NULL =? e then negb (Z.testbit (f_edirs x) (i + m)) else Z.testbit (f_edirs x) (i + m)) ->
         flip e (vw l i (Z.testbit (f_edirs x))) = vw l i (Z.testbit w)).
      { unfold ZL. clear. induction l as [|y l IH]; intros i Hi H; cbn [vw]; auto. unfold flip. cbn [map fst snd]. cbn [length] in H. f_equal.
        - specialize (H 0 ltac:(lia)). change (Z.to_nat 0) with 0%nat in H. cbn [nth] in H. replace (i + 0) with i in H by lia. rewrite H. destruct (y =? e); auto.
        - apply IH. lia. intros m Hm. specialize (H (m + 1) ltac:(lia)). replace (Z.to_nat (m + 1)) with (S (Z.to_nat m)) in H by lia. cbn [nth] in H.
          replace (i + 1 + m) with (i + (m + 1)) by lia. auto. }
      subst b. apply G. lia. intros m Hm. rewrite A5 by lia. replace (0 + m <? ZL l) with true by lia. cbn. auto. }
    assert (Fm : map fst (flip e b) = l) by (rewrite Ed; apply vw_fst).
    eapply inv_fb with (x' := set_fedges x w l) (D := fun _ => False) (A := fun _ => False); eauto.
    + unfold fview. cbn. rewrite Lx. do 3 f_equal. auto.
    + eapply erel_tes; [| |apply erel_refl]; eauto.
    + rewrite Forall_forall. intros q Hq. 
      assert (HI : In (fst q) (map fst b)). { replace (map fst b) with (map fst (flip e b)). apply in_map; auto. rewrite Fm, Eb, vw_fst. auto. }
      apply live_in with (b := b); auto. apply (w_fe _ W _ _ Hb).
    + rewrite Fm. auto.
    + rewrite Ed, vw_length. unfold maxfe, ZL in *. lia.
    + intros p. rewrite Fm. unfold has_edge. rewrite Hb. split.
      * intros [[(c & Hc & HI) _]|[]]. inversion Hc; subst c. rewrite Eb, vw_fst in HI. auto.
      * intros HI. left. split; auto. exists b. split; auto. rewrite Eb, vw_fst. auto.
Qed.

(** ** Replacement of a run of edges *)

Definition zd (x : ptr * bool) : ptr * Z := (fst x, b2z (snd x)).
Lemma zd_fst : forall b, map fst (map zd b) = map fst b.
Proof. intros. rewrite map_map. apply map_ext. auto. Qed.

Lemma mapM_ext_ok : forall A B (f : A -> result B) l r, length l = length r -> (forall i d e, (i < length l)%nat -> f (nth i l d) = Ok (nth i r e)) -> mapM f l = Ok r.
Proof.
  intros A B f l. induction l as [|x l IH]; intros [|y r] HL H; cbn in *; try discriminate; auto.
  rewrite (H O x y ltac:(lia)). cbn [bind nth]. rewrite (IH r ltac:(lia)). auto. intros i d e Hi. apply (H (S i) d e). lia.
Qed.

Lemma nth_firstn_lt : forall A (l : list A) n j d, (j < n)%nat -> nth j (firstn n l) d = nth j l d.
Proof. intros A l. induction l as [|x l IH]; intros n j d H; destruct n, j; cbn; auto; try lia. apply IH. lia. Qed.
Lemma nth_skipn : forall A (l : list A) n j d, nth j (skipn n l) d = nth (n + j) l d.
Proof. intros A l. induction l as [|x l IH]; intros n j d; destruct n; cbn; auto. destruct j; auto. Qed.
Lemma run_nth : forall (b : list (ptr * bool)) i n j d, (i < length b)%nat -> (n <= length b)%nat -> (j < n)%nat ->
  nth j (run i n b) d = nth ((i + j) mod length b) b d.
Proof.
  intros b i n j d Hi Hn Hj. unfold run. rewrite nth_firstn_lt by auto. rewrite nth_app_if, skipn_length. destruct (Nat.ltb_spec j (length b - i)).
  - rewrite nth_skipn. rewrite Nat.mod_small by lia. auto.
  - assert (E : ((i + j) mod length b = i + j - length b)%nat). { symmetry. apply Nat.mod_unique with (q := 1%nat); lia. } rewrite E. f_equal. lia.
Qed.
Lemma run_length : forall (b : list (ptr * bool)) i n, (i < length b)%nat -> (n <= length b)%nat -> length (run i n b) = n.
Proof. intros. unfold run. rewrite firstn_length, app_length, skipn_length. lia. Qed.
Lemma rem_mod : forall (i j m : nat), (0 < m)%nat -> Z.rem (Z.of_nat i + Z.of_nat j) (Z.of_nat m) = Z.of_nat ((i + j) mod m).
Proof. intros. rewrite Z.rem_mod_nonneg by lia. rewrite <- Nat2Z.inj_add, <- Nat2Z.inj_mod. auto. Qed.

Lemma old_run_ok : forall l w b i n, rep l w b -> (i < length b)%nat -> (n <= length b)%nat ->
  old_run l w (Z.of_nat i) (Z.of_nat n) = Ok (map zd (run i n b)).
Proof.
  intros l w b i n (-> & L & B) Hi Hn. unfold old_run. apply mapM_ext_ok.
  - rewrite zrange_length, map_length, run_length; auto. lia.
  - intros j d e Hj. rewrite zrange_length in Hj. rewrite nth_zrange by auto.
    unfold ZL. rewrite map_length. replace (Z.of_nat (length b) =? 0) with false by lia. replace (0 + Z.of_nat j) with (Z.of_nat j) by lia. rewrite rem_mod by lia.
    unfold lent. replace (_ <? 0) with false by lia. cbn [bind]. assert (M : ((i + j) mod length b < length b)%nat) by (apply Nat.mod_upper_bound; lia).
    rewrite bit64_ok by lia. cbn [bind]. rewrite B by lia. rewrite Nat2Z.id. f_equal.
    rewrite (nth_indep _ e (zd (NULL, true))) by (rewrite map_length, run_length; lia). rewrite (map_nth zd), run_nth by lia. unfold zd. f_equal.
    change NULL with (fst (NULL, true)) at 1. apply map_nth.
Qed.

(** Ends of directed edges in the model. *)
Lemma ev_start : forall t a e x d, inv t a -> a_e a e = Some (true, x) -> ME_Vertex t e (lnot (b2z d)) = Ok (d_start x d).
Proof.
  intros t a e x d I H. destruct (get_e t a e I ltac:(congruence)) as (z & Hz & Az). rewrite H in Az. inversion Az; subst. unfold ME_Vertex, gete. rewrite Hz. cbn [bind].
  destruct d; auto.
Qed.
Lemma ev_end : forall t a e x d, inv t a -> a_e a e = Some (true, x) -> ME_Vertex t e (b2z d) = Ok (d_end x d).
Proof.
  intros t a e x d I H. destruct (get_e t a e I ltac:(congruence)) as (z & Hz & Az). rewrite H in Az. inversion Az; subst. unfold ME_Vertex, gete. rewrite Hz. cbn [bind].
  destruct d; auto.
Qed.
Lemma ev_uses : forall t a e x v, inv t a -> a_e a e = Some (true, x) -> ME_UsesVertex t e v = Ok ((fst x =? v) || (snd x =? v)).
Proof.
  intros t a e x v I H. destruct (get_e t a e I ltac:(congruence)) as (z & Hz & Az). rewrite H in Az. inversion Az; subst. unfold ME_UsesVertex, gete. rewrite Hz. auto.
Qed.

Lemma path_app : forall a nd1 nd2 v v', path a v (nd1 ++ nd2) v' <-> exists u, path a v nd1 u /\ path a u nd2 v'.
Proof.
  induction nd1 as [|[e d] nd1 IH]; intros nd2 v v'; cbn [app path].
  - split; eauto. intros (u & -> & H). auto.
  - split.
    + intros (x & H1 & H2 & H3 & H4). apply IH in H4. destruct H4 as (u & H4 & H5). eauto 8.
    + intros (u & (x & H1 & H2 & H3 & H4) & H5). exists x. repeat split; auto. apply IH. eauto.
Qed.
Lemma stops_app : forall a nd1 nd2, stops a (nd1 ++ nd2) = stops a nd1 ++ stops a nd2.
Proof. induction nd1 as [|[e d] nd1 IH]; intros; cbn; auto. rewrite IH. auto. Qed.
Lemma path_end : forall a nd v v', path a v nd v' -> nd <> [] -> In v' (stops a nd).
Proof.
  induction nd as [|[e d] nd IH]; intros v v' H HN. congruence. cbn [path stops] in *. destruct H as (x & H1 & H2 & H3 & H4). rewrite H1.
  destruct nd. cbn in H4. subst. cbn; auto. right. eapply IH; eauto. discriminate.
Qed.

Lemma new_dirs_ok : forall t a nd v v', inv t a -> path a v nd v' -> new_dirs t v (map fst nd) = Ok (map zd nd).
Proof.
  intros t a nd. induction nd as [|[e d] nd IH]; intros v v' I H; auto. cbn [path] in H. destruct H as (x & H1 & H2 & H3 & H4).
  cbn [map fst new_dirs]. rewrite (ev_end t a e x false I H1 : ME_Vertex t e 0 = _). cbn [bind d_end].
  assert (E : (fst x =? v) = d). { unfold d_start in H3. destruct d; lia. }
  rewrite E. rewrite (ev_end t a e x d I H1). cbn [bind]. rewrite (IH _ _ I H4). auto.
Qed.

Lemma rev_test_ok : forall t a nd v v' (rv : bool), inv t a -> path a v nd v' -> nd <> [] -> (rv = true -> NoDup (v :: stops a nd)) ->
  let nus := if rv then rev (map fst nd) else map fst nd in
  exists r, rev_test t v v' nus = Ok r /\ (if r then rev nus else nus) = map fst nd.
Proof.
  intros t a nd v v' rv I P HN ND nus.
  destruct nd as [|[e0 d0] nd0]; [congruence|]. destruct (exists_last HN) as (nd1 & [el dl] & El). 
  assert (P0 := P). cbn [path] in P0. destruct P0 as (x0 & X1 & X2 & X3 & X4). 
  assert (P1 := P). rewrite El in P1. apply path_app in P1. destruct P1 as (u & U1 & xl & Y1 & Y2 & Y3 & Y4). cbn [path] in Y4.
  assert (Use0 : ((fst x0 =? v) || (snd x0 =? v)) = true) by (unfold d_start in X3; destruct d0; lia).
  assert (Usel : ((fst xl =? v') || (snd xl =? v')) = true) by (unfold d_end in Y4; destruct dl; lia).
  assert (Hlen : (length nus = length nd1 + 1)%nat). { unfold nus. destruct rv; rewrite ?rev_length, map_length, El, app_length; auto. }
  unfold rev_test, ZL. rewrite !rdl_ok by lia. cbn [bind]. replace (Z.to_nat (Z.of_nat (length nus) - 1)) with (length nd1) by lia.
  replace (Z.to_nat 0) with O by lia.
  assert (F0 : nth 0 (map fst ((e0, d0) :: nd0)) 0 = e0) by auto.
  assert (Fl : nth (length nd1) (map fst ((e0, d0) :: nd0)) 0 = el). { rewrite El, map_app, app_nth2; rewrite map_length; [|lia]. rewrite Nat.sub_diag. auto. }
  destruct rv; unfold nus.
  - assert (G0 : nth 0 (rev (map fst ((e0, d0) :: nd0))) 0 = el). { rewrite El, map_app, rev_app_distr. auto. }
    assert (Gl : nth (length nd1) (rev (map fst ((e0, d0) :: nd0))) 0 = e0).
    { rewrite rev_nth. rewrite map_length, El, app_length. cbn [length]. replace (length nd1 + 1 - S (length nd1))%nat with O by lia. rewrite <- El. auto. rewrite map_length, El, app_length. cbn. lia. }
    rewrite G0, Gl. rewrite !(ev_uses t a el xl) by auto. rewrite !(ev_uses t a e0 x0) by auto. cbn [bind].
    destruct nd0 as [|q nd0].
    + (* one edge *) match goal with |- exists r, (if ?c then _ else _) = _ /\ _ => destruct c end; eexists; split; eauto; cbn; try reflexivity. destruct (_ && _); auto.
    + assert (NV : ((fst xl =? v) || (snd xl =? v)) = false).
      { specialize (ND eq_refl). rewrite El, stops_app in ND. apply NoDup_cons_iff in ND. destruct ND as [ND _]. rewrite in_app_iff in ND. cbn in ND. rewrite Y1 in ND.
        assert (HNe : nd1 <> []). { intros ->. cbn in El. inversion El. }
        pose proof (path_end _ _ _ _ U1 HNe) as PE. unfold d_end, d_start in Y3, Y4, ND.
        apply not_true_iff_false. intros HH. apply ND. apply orb_true_iff in HH. destruct dl; destruct HH as [HH|HH]; apply Z.eqb_eq in HH; auto; left; congruence. }
      rewrite NV, Use0, Usel. cbn [andb]. eexists. split; [reflexivity|]. apply rev_involutive.
  - rewrite F0, Fl. rewrite !(ev_uses t a el xl) by auto. rewrite !(ev_uses t a e0 x0) by auto. cbn [bind]. rewrite Use0, Usel. cbn. eexists. split; eauto.
Qed.

Lemma combine_app : forall A B (l1 l1' : list A) (l2 l2' : list B), length l1 = length l2 -> combine (l1 ++ l1') (l2 ++ l2') = combine l1 l2 ++ combine l1' l2'.
Proof. intros A B l1. induction l1 as [|x l1 IH]; intros l1' [|y l2] l2' H; cbn in *; try discriminate; auto. rewrite IH by lia. auto. Qed.
Lemma zrange_app : forall a b c, a <= b <= c -> zrange a c = zrange a b ++ zrange b c.
Proof.
  intros a b c H. apply nth_ext with (d := 0) (d' := 0).
  - rewrite app_length, !zrange_length. lia.
  - intros n Hn. rewrite zrange_length in Hn. rewrite nth_zrange by lia. rewrite nth_app_if, zrange_length. destruct (Nat.ltb_spec n (Z.to_nat (b - a))); rewrite nth_zrange by lia; lia.
Qed.

(** Positions overwritten, one after the other. *)
Lemma repl_run : forall nd b1 rr b2 l w i j0 ne, rep l w (b1 ++ rr ++ b2) -> length rr = length nd ->
  ne = Z.of_nat (length (b1 ++ rr ++ b2)) ->
  (forall j, (j < length nd)%nat -> Z.rem (i + (j0 + Z.of_nat j)) ne = Z.of_nat (length b1 + j)) ->
  exists l' w', foldM (fun '(l, w) '(j, (e, d)) =>
      if ne =? 0 then Undef else
      let k := Z.rem (i + j) ne in
      if (k <? 0) || (ZL l <=? k) then Undef else
      w <- clr64 w k ;; w <- ori64 w d k ;; Ok (replace_at (Z.to_nat k) e l, w)) (l, w)
    (combine (zrange j0 (j0 + Z.of_nat (length nd))) (map zd nd)) = Ok (l', w') /\ rep l' w' (b1 ++ nd ++ b2).
Proof.
  induction nd as [|[e d] nd IH]; intros b1 rr b2 l w i j0 ne R HL Hne Hk.
  - cbn [length Z.of_nat]. rewrite zrange_nil by (cbn; lia). cbn. destruct rr; [|discriminate]. eauto.
  - destruct rr as [|q rr]; [discriminate|]. cbn [length] in *. rewrite zrange_cons by lia. cbn [map combine foldM zd fst snd].
    pose proof (Hk O ltac:(lia)) as H0. replace (j0 + Z.of_nat 0) with j0 in H0 by lia. rewrite Nat.add_0_r in H0. rewrite H0.
    replace (ne =? 0) with false by (rewrite !app_length in Hne; cbn [length] in Hne; lia).
    assert (HZ : ZL l = ne). { destruct R as (-> & _). unfold ZL. rewrite map_length. auto. }
    replace ((Z.of_nat (length b1) <? 0) || (ZL l <=? Z.of_nat (length b1))) with false by (rewrite HZ; rewrite !app_length in Hne; cbn [length] in Hne; lia).
    cbn [app] in R. destruct (rep_set l w b1 q (rr ++ b2) e d R) as (w1 & w' & E1 & E2 & R'). rewrite E1. cbn [bind]. rewrite E2. cbn [bind]. rewrite Nat2Z.id.
    replace (j0 + Z.of_nat (S (length nd))) with (j0 + 1 + Z.of_nat (length nd)) by lia.
    destruct (IH (b1 ++ [(e, d)]) rr b2 (replace_at (length b1) e l) w' i (j0 + 1) ne) as (l' & w'' & E & R2).
    + rewrite <- app_assoc. cbn. auto.
    + lia.
    + rewrite Hne, !app_length. cbn [length]. lia.
    + intros j Hj. specialize (Hk (S j) ltac:(lia)). replace (j0 + 1 + Z.of_nat j) with (j0 + Z.of_nat (S j)) by lia. rewrite Hk, app_length. cbn [length]. lia.
    + exists l', w''. replace (ne =? 0) with false in E by (rewrite !app_length in Hne; cbn [length] in Hne; lia). split; auto. rewrite <- app_assoc in R2. auto.
Qed.

Lemma ins_rest_ok : forall nd b1 b2 l w ne, rep l w (b1 ++ b2) -> ne = Z.of_nat (length (b1 ++ b2)) -> (length (b1 ++ b2) + length nd <= 32)%nat ->
  exists l' w', ins_rest l w (Z.of_nat (length b1)) ne (map zd nd) = Ok (l', w') /\ rep l' w' (b1 ++ nd ++ b2).
Proof.
  induction nd as [|[e d] nd IH]; intros b1 b2 l w ne R Hne HL.
  - cbn. eauto.
  - cbn [map zd fst snd ins_rest]. assert (HZ : ZL l = ne). { destruct R as (-> & _). unfold ZL. rewrite map_length. auto. }
    replace ((_ <? 0) || _) with false by (rewrite HZ; rewrite app_length in Hne; lia). cbn [length] in HL.
    destruct (rep_ins l w b1 b2 e d R ltac:(lia)) as (w1 & w2 & w' & E1 & E2 & E3 & R'). rewrite Hne, E1. cbn [bind]. rewrite E2. cbn [bind]. rewrite E3. cbn [bind].
    rewrite Nat2Z.id. destruct (IH (b1 ++ [(e, d)]) b2 (insert_at (length b1) e l) w' (Z.of_nat (length (b1 ++ b2)) + 1)) as (l' & w'' & E & R2).
    + rewrite <- app_assoc. cbn. auto.
    + rewrite !app_length. cbn [length]. lia.
    + rewrite !app_length in *. cbn [length]. lia.
    + exists l', w''. split. rewrite <- E. f_equal. rewrite app_length. cbn [length]. lia. rewrite <- app_assoc in R2. auto.
Qed.

Lemma remove1_mid : forall l1 x l2, ~ In x l1 -> remove1 x (l1 ++ x :: l2) = l1 ++ l2.
Proof. induction l1 as [|y l1 IH]; intros x l2 H; cbn in *. rewrite Z.eqb_refl. auto. replace (y =? x) with false by lia. rewrite IH by tauto. auto. Qed.

Lemma del1_ok : forall l w b1 x b2 i ncom olds, rep l w (b1 ++ x :: b2) -> ~ In (fst x) (map fst b1) ->
  Z.rem (i + ncom + 0) (Z.of_nat (length (b1 ++ x :: b2))) = Z.of_nat (length b1) -> skipn (Z.to_nat ncom) olds = [fst x] ->
  exists l' w', del_rest l w i ncom (ncom + 1) (Z.of_nat (length (b1 ++ x :: b2))) olds = Ok (l', w') /\ rep l' w' (b1 ++ b2).
Proof.
  intros l w b1 x b2 i ncom olds R HN Hk Ho. unfold del_rest. rewrite Ho. cbn [fold_left]. replace (ncom + 1 - ncom) with 1 by lia.
  rewrite zrange_cons, zrange_nil by lia. cbn [foldM]. rewrite Hk.
  replace (Z.of_nat (length (b1 ++ x :: b2)) =? 0) with false by (rewrite app_length; cbn [length]; lia).
  destruct (rep_del l w b1 x b2 R) as (w' & Ew & R'). rewrite Ew. cbn [bind]. eexists _, _. split; [reflexivity|].
  assert (E : remove1 (fst x) l = delete_at (length b1) l); [|rewrite E; auto].
  destruct R as (-> & _). rewrite map_app. cbn [map]. rewrite remove1_mid by auto. rewrite <- (map_length fst b1). rewrite delete_at_app. auto.
Qed.
Lemma del0_ok : forall l w i n ne olds, skipn (Z.to_nat n) olds = [] -> del_rest l w i n n ne olds = Ok (l, w).
Proof. intros. unfold del_rest. rewrite H, zrange_nil by lia. auto. Qed.

Lemma split3 : forall A (b : list A) i n, (i + n <= length b)%nat -> exists b1 r b2, b = b1 ++ r ++ b2 /\ length b1 = i /\ length r = n.
Proof.
  intros A b i n H. exists (firstn i b), (firstn n (skipn i b)), (skipn n (skipn i b)). rewrite !firstn_skipn. rewrite !firstn_length, skipn_length. split; auto; lia.
Qed.
Lemma firstn_app1 : forall A (l1 l2 : list A), firstn (length l1) (l1 ++ l2) = l1.
Proof. intros A l1. induction l1; intros; cbn; auto. rewrite IHl1. auto. Qed.
Lemma skipn_app1 : forall A (l1 l2 : list A), skipn (length l1) (l1 ++ l2) = l2.
Proof. intros A l1. induction l1; intros; cbn; auto. Qed.
Lemma last1 : forall A (l : list A) n, length l = S n -> exists l1 x, l = l1 ++ [x] /\ length l1 = n.
Proof.
  intros A l n H. destruct (@exists_last A l) as (l1 & x & ->). destruct l; discriminate. exists l1, x. split; auto. rewrite app_length in H. cbn in H. lia.
Qed.
Lemma zd_map : forall b n, firstn n (map zd b) = map zd (firstn n b) /\ skipn n (map zd b) = map zd (skipn n b).
Proof. intros. rewrite firstn_map, skipn_map. auto. Qed.
Lemma zr : forall a b c, 0 <= a -> 0 < b -> a mod b = c -> Z.rem a b = c.
Proof. intros. rewrite Z.rem_mod_nonneg; lia. Qed.

Definition repl_tail (l : list ptr) (w i n : Z) (nd : list (ptr * Z)) (od : list ptr) : result (list ptr * Z) :=
  '(l', w) <- repl_com l w i (ZL l) (firstn (Z.to_nat (Z.min n (Z.of_nat (length nd)))) nd) ;;
  if n <? Z.of_nat (length nd) then ins_rest l' w (i + Z.min n (Z.of_nat (length nd))) (ZL l) (skipn (Z.to_nat (Z.min n (Z.of_nat (length nd)))) nd)
  else del_rest l' w i (Z.min n (Z.of_nat (length nd))) n (ZL l) od.

Lemma repl_tail_ok : forall l w b i n nd, rep l w b -> (i < length b)%nat -> (1 <= n <= length b)%nat -> (1 <= length nd)%nat ->
  (length nd = n \/ (n < length nd /\ i + n <= length b)%nat \/
       (n = S (length nd) /\ ~ In (fst (nth (n - 1) (run i n b) (NULL, true))) (map fst nd))) ->
  NoDup (map fst b) -> (length (splice i n nd b) <= 32)%nat ->
  exists l' w', repl_tail l w (Z.of_nat i) (Z.of_nat n) (map zd nd) (map fst (run i n b)) = Ok (l', w') /\ rep l' w' (splice i n nd b).
Proof.
  intros l w b i n nd R Hi Hn Hnd Hc N HL. unfold repl_tail. rewrite map_length. destruct (zd_map nd (Z.to_nat (Z.min (Z.of_nat n) (Z.of_nat (length nd))))) as [-> ->].
  assert (HZ : ZL l = Z.of_nat (length b)). { destruct R as (-> & _). unfold ZL. rewrite map_length. auto. } rewrite HZ.
  assert (Hmin : Z.min (Z.of_nat n) (Z.of_nat (length nd)) = Z.of_nat (Nat.min n (length nd))) by lia. rewrite Hmin. rewrite !Nat2Z.id.
  unfold repl_com. rewrite map_length.
  destruct (le_lt_dec (i + n) (length b)) as [HW|HW].
  - (* no wrap *)
    destruct (split3 _ b i n HW) as (b1 & r & b2 & Eb & L1 & L2).
    assert (Erun : run i n b = r).
    { unfold run. subst b i n. rewrite skipn_app1. rewrite <- !app_assoc. apply firstn_app1. }
    assert (Espl : splice i n nd b = b1 ++ nd ++ b2).
    { unfold splice. destruct (Nat.leb_spec (i + n) (length b)); [|lia]. subst b i n. rewrite firstn_app1. f_equal. f_equal. rewrite app_assoc, <- app_length. apply skipn_app1. }
    rewrite Erun, Espl in *. subst b.
    assert (Lb := Hn). rewrite !app_length in Lb, Hi.
    set (nc := Nat.min n (length nd)).
    assert (Er : r = firstn nc r ++ skipn nc r) by (symmetry; apply firstn_skipn).
    assert (Lnc : length (firstn nc nd) = nc) by (rewrite firstn_length; lia).
    destruct (repl_run (firstn nc nd) b1 (firstn nc r) (skipn nc r ++ b2) l w (Z.of_nat i) 0 (Z.of_nat (length (b1 ++ r ++ b2)))) as (l1 & w1 & E1 & R1).
    { rewrite (app_assoc (firstn nc r)), firstn_skipn. auto. }
    { rewrite !firstn_length. lia. }
    { rewrite (app_assoc (firstn nc r)), firstn_skipn. auto. }
    { intros j Hj. rewrite Lnc in Hj. apply zr; rewrite ?app_length; try lia. rewrite Z.mod_small by lia. lia. }
    replace (0 + Z.of_nat (length (firstn nc nd))) with (Z.of_nat (length (firstn nc nd))) in E1 by lia.
    cbv zeta in E1. rewrite E1. cbn [bind].
    destruct Hc as [Hc|[[Hc _]|[Hc Hx]]].
    + (* equal *) replace (_ <? _) with false by lia. assert (nc = n) by lia. rewrite H in *. rewrite del0_ok.
      exists l1, w1. split; auto. rewrite <- Hc in R1 at 1. rewrite firstn_all in R1. rewrite <- L2, skipn_all in R1. auto.
      rewrite Nat2Z.id. apply skipn_all2. rewrite map_length. lia.
    + (* more *) replace (_ <? _) with true by lia. assert (nc = n) by lia. rewrite H in *. rewrite <- L2, skipn_all in R1. cbn [app] in R1. rewrite L2 in R1.
      rewrite app_assoc in R1. destruct (ins_rest_ok (skipn n nd) (b1 ++ firstn n nd) b2 l1 w1 (Z.of_nat (length (b1 ++ r ++ b2))) R1) as (l2 & w2 & E2 & R2).
      * rewrite !app_length. lia.
      * rewrite !app_length in *. rewrite skipn_length. lia.
      * exists l2, w2. split. rewrite <- E2. f_equal. rewrite app_length. lia. rewrite <- app_assoc, (app_assoc (firstn n nd)), firstn_skipn in R2. auto.
    + (* one fewer *) replace (_ <? _) with false by lia. assert (nc = length nd) by lia. rewrite H in *. rewrite firstn_all in R1.
      destruct (last1 _ r (length nd) ltac:(lia)) as (r' & x & -> & Lr'). rewrite <- Lr' in R1. rewrite skipn_app1 in R1. cbn [app] in R1.
      rewrite app_assoc in R1.
      assert (Exx : nth (n - 1) (r' ++ [x]) (NULL, true) = x). { rewrite app_nth2 by lia. replace (n - 1 - length r')%nat with O by lia. auto. } rewrite Exx in Hx.
      assert (Elen : length (b1 ++ (r' ++ [x]) ++ b2) = length ((b1 ++ nd) ++ x :: b2)). { rewrite !app_length. cbn [length]. lia. }
      destruct (del1_ok l1 w1 (b1 ++ nd) x b2 (Z.of_nat i) (Z.of_nat (length nd)) (map fst (r' ++ [x])) R1) as (l2 & w2 & E2 & R2).
      * rewrite map_app, in_app_iff. intros [HI|HI]; [|tauto]. rewrite !map_app in N. apply nd_app in N. destruct N as (_ & _ & N). apply (N (fst x)); auto. rewrite !in_app_iff. cbn. auto.
      * apply zr; rewrite ?app_length in *; cbn [length] in *; try lia. rewrite Z.mod_small by lia. lia.
      * rewrite Nat2Z.id, map_app, <- Lr', <- (map_length fst r'), skipn_app1. auto.
      * exists l2, w2. split. rewrite Elen. rewrite <- E2. f_equal. lia. rewrite <- app_assoc in R2. auto.
  - (* wrap *)
    assert (Hc' : length nd = n \/ (n = S (length nd) /\ ~ In (fst (nth (n - 1) (run i n b) (NULL, true))) (map fst nd))) by (destruct Hc as [|[[]|]]; auto; lia).
    clear Hc. set (m := length b) in *.
    destruct (split3 _ b (i + n - m) (m - n)) as (r2 & c & r1 & Eb & L2 & Lc). { fold m. lia. }
    assert (Lr1 : length r1 = (m - i)%nat). { unfold m in *. rewrite Eb, !app_length in *. lia. }
    assert (Erun : run i n b = r1 ++ r2).
    { unfold run. rewrite Eb. replace i with (length (r2 ++ c)) by (rewrite app_length; lia). rewrite (app_assoc r2 c r1) at 1. rewrite skipn_app1.
      replace n with (length (r1 ++ r2)) at 1 by (rewrite app_length; lia). rewrite app_assoc. apply firstn_app1. }
    set (nd1 := firstn (m - i) nd). set (nd2 := skipn (m - i) nd). assert (End : nd = nd1 ++ nd2) by (symmetry; apply firstn_skipn).
    assert (Lnd1 : length nd1 = (m - i)%nat) by (unfold nd1; rewrite firstn_length; lia).
    assert (Lnd : (length nd = length nd1 + length nd2)%nat) by (rewrite End at 1; apply app_length).
    assert (Espl : splice i n nd b = nd2 ++ c ++ nd1).
    { unfold splice. fold m. destruct (Nat.leb_spec (i + n) m); [lia|]. fold nd1 nd2. f_equal. f_equal. rewrite Eb, <- L2, skipn_app1.
      replace (i - length r2)%nat with (length c) by lia. apply firstn_app1. }
    replace (Nat.min n (length nd)) with (length nd) by lia. rewrite firstn_all. rewrite Erun, Espl in *.
    replace (Z.of_nat n <? Z.of_nat (length nd)) with false by lia.
    destruct (repl_run nd1 (r2 ++ c) r1 [] l w (Z.of_nat i) 0 (Z.of_nat m)) as (l1 & w1 & E1 & R1).
    { rewrite app_nil_r, <- app_assoc, <- Eb. auto. }
    { lia. }
    { rewrite app_nil_r, <- app_assoc, <- Eb. auto. }
    { intros j Hj. apply zr; try lia. rewrite Z.mod_small by lia. rewrite app_length. lia. }
    rewrite app_nil_r in R1.
    destruct (repl_run nd2 [] (firstn (length nd2) r2) (skipn (length nd2) r2 ++ c ++ nd1) l1 w1 (Z.of_nat i) (Z.of_nat (length nd1)) (Z.of_nat m)) as (l2 & w2 & E2 & R2).
    { cbn [app]. rewrite (app_assoc (firstn _ _)), firstn_skipn, app_assoc. auto. }
    { rewrite firstn_length. lia. }
    { cbn [app]. rewrite (app_assoc (firstn _ _)), firstn_skipn. rewrite !app_length. lia. }
    { intros j Hj. apply zr; try lia. cbn [length]. symmetry. apply Z.mod_unique with (q := 1); lia. }
    assert (EC : combine (zrange 0 (Z.of_nat (length nd))) (map zd nd) =
      combine (zrange 0 (0 + Z.of_nat (length nd1))) (map zd nd1) ++ combine (zrange (Z.of_nat (length nd1)) (Z.of_nat (length nd1) + Z.of_nat (length nd2))) (map zd nd2)).
    { rewrite End at 2. rewrite map_app. rewrite (zrange_app 0 (Z.of_nat (length nd1))) by lia. rewrite combine_app by (rewrite zrange_length, map_length; lia). do 2 f_equal. f_equal. lia. }
    cbv zeta in E1, E2. rewrite EC, foldM_app, E1. cbn [bind]. rewrite E2. cbn [bind].
    destruct Hc' as [Hc|[Hc Hx]].
    + rewrite <- Hc. rewrite del0_ok. exists l2, w2. split; auto. cbn [app] in R2. replace (length nd2) with (length r2) in R2 by lia. rewrite skipn_all in R2. auto.
      rewrite Nat2Z.id. apply skipn_all2. rewrite map_length, app_length. lia.
    + destruct (last1 _ r2 (length nd2) ltac:(lia)) as (r2' & x & -> & Lr'). cbn [app] in R2. rewrite <- Lr', skipn_app1 in R2. cbn [app] in R2.
      rewrite app_assoc in Hx. 
      assert (Exx : nth (n - 1) ((r1 ++ r2') ++ [x]) (NULL, true) = x). { rewrite app_nth2 by (rewrite app_length; lia). rewrite app_length. replace (n - 1 - _)%nat with O by lia. auto. } rewrite Exx in Hx.
      assert (Elen : m = length (nd2 ++ x :: c ++ nd1)). { rewrite app_length. cbn [length]. rewrite app_length. rewrite app_length in L2. cbn [length] in L2. lia. }
      rewrite Elen. destruct (del1_ok l2 w2 nd2 x (c ++ nd1) (Z.of_nat i) (Z.of_nat (length nd)) (map fst (r1 ++ r2' ++ [x])) R2) as (l3 & w3 & E3 & R3).
      * intros HI. apply Hx. rewrite End, map_app, in_app_iff. auto.
      * rewrite <- Elen. apply zr; try lia. symmetry. apply Z.mod_unique with (q := 1); rewrite app_length in L2; cbn [length] in L2; lia.
      * rewrite Nat2Z.id, app_assoc, map_app. replace (length nd) with (length (map fst (r1 ++ r2'))) by (rewrite map_length, app_length; lia). rewrite skipn_app1. auto.
      * exists l3, w3. split; auto. rewrite <- E3. f_equal. lia.
Qed.

(** The edges of a spliced boundary: those outside the run, and the new ones. *)
Lemma splice_In : forall (b nd : list (ptr * bool)) i n, (i < length b)%nat -> (1 <= n <= length b)%nat ->
  ((i + n > length b)%nat -> (length nd <= n)%nat) -> NoDup (map fst b) ->
  forall e, In e (map fst (splice i n nd b)) <-> (In e (map fst b) /\ ~ In e (map fst (run i n b))) \/ In e (map fst nd).
Proof.
  intros b nd i n Hi Hn Hw N e. destruct (le_lt_dec (i + n) (length b)) as [HW|HW].
  - destruct (split3 _ b i n HW) as (b1 & r & b2 & Eb & L1 & L2).
    assert (Erun : run i n b = r). { unfold run. subst b i n. rewrite skipn_app1. rewrite <- !app_assoc. apply firstn_app1. }
    assert (Espl : splice i n nd b = b1 ++ nd ++ b2).
    { unfold splice. destruct (Nat.leb_spec (i + n) (length b)); [|lia]. subst b i n. rewrite firstn_app1. f_equal. f_equal. rewrite app_assoc, <- app_length. apply skipn_app1. }
    rewrite Erun, Espl. subst b. rewrite !map_app in *. rewrite !in_app_iff. apply nd_app in N. destruct N as (N1 & N2 & N3). apply nd_app in N2. destruct N2 as (N4 & N5 & N6).
    specialize (N3 e). specialize (N6 e). rewrite in_app_iff in N3. tauto.
  - set (m := length b) in *. destruct (split3 _ b (i + n - m) (m - n)) as (r2 & c & r1 & Eb & L2 & Lc). { fold m. lia. }
    assert (Lr1 : length r1 = (m - i)%nat). { unfold m in *. rewrite Eb, !app_length in *. lia. }
    assert (Erun : run i n b = r1 ++ r2).
    { unfold run. rewrite Eb. replace i with (length (r2 ++ c)) by (rewrite app_length; lia). rewrite (app_assoc r2 c r1) at 1. rewrite skipn_app1.
      replace n with (length (r1 ++ r2)) at 1 by (rewrite app_length; lia). rewrite app_assoc. apply firstn_app1. }
    assert (Espl : splice i n nd b = skipn (m - i) nd ++ c ++ firstn (m - i) nd).
    { unfold splice. fold m. destruct (Nat.leb_spec (i + n) m); [lia|]. f_equal. f_equal. rewrite Eb, <- L2, skipn_app1.
      replace (i - length r2)%nat with (length c) by lia. apply firstn_app1. }
    rewrite Erun, Espl. rewrite <- (firstn_skipn (m - i) nd) at 3. subst b. rewrite !map_app in *. rewrite !in_app_iff. apply nd_app in N. destruct N as (N1 & N2 & N3). apply nd_app in N2. destruct N2 as (N4 & N5 & N6).
    specialize (N3 e). specialize (N6 e). rewrite in_app_iff in N3. tauto.
Qed.
Lemma in_map_fst : forall (A B : Type) (l : list (A * B)) p, In p l -> In (fst p) (map fst l).
Proof. intros. apply in_map. auto. Qed.

Lemma step_replace_edges : forall t a f i n nd rv, inv t a -> tpre a (TReplaceEdges f i n nd rv) ->
  exists t', tstep t (TReplaceEdges f i n nd rv) = Ok t' /\ inv t' (astep a (TReplaceEdges f i n nd rv)).
Proof.
  intros t a f i n nd rv I ((b & Hb) & HP). cbn zeta in HP. assert (Efb : fbdry a f = b) by (unfold fbdry; rewrite Hb; auto). rewrite Efb in HP.
  destruct HP as (Hi & Hn & Hnd & Hc & N' & L' & Lnd & v & v' & P1 & P2 & Hrv).
  destruct (inv_full _ _ _ _ I Hb) as (x & l & Ex & Lx & El & Eb & N & L & Te). pose proof (i_w _ _ I) as W.
  pose proof (vw_rep l (f_edirs x) L) as R. rewrite <- Eb in R.
  assert (Nb : NoDup (map fst b)) by (rewrite Eb, vw_fst; auto).
  assert (HNnd : nd <> []) by (destruct nd; cbn in *; [lia|discriminate]).
  cbn [tstep astep]. unfold MF_Replace_Edges_i, getf. rewrite Ex. cbn [bind]. rewrite El. cbn [nn bind].
  rewrite (old_run_ok l (f_edirs x) b i n R Hi ltac:(lia)). cbn [bind].
  pose proof (run_length b i n Hi ltac:(lia)) as LR.
  destruct (run i n b) as [|[e0 d0] rr] eqn:Erun; [cbn in LR; lia|].
  change (nth_error (map zd ((e0, d0) :: rr)) 0) with (Some (e0, b2z d0)). cbn [nn bind].
  destruct (@exists_last _ ((e0, d0) :: rr)) as (rl & [el dl] & Erl); [discriminate|].
  assert (Enth : nth_error (map zd ((e0, d0) :: rr)) (length (map zd ((e0, d0) :: rr)) - 1) = Some (el, b2z dl)).
  { rewrite Erl, map_app, nth_error_app2; rewrite app_length, !map_length; cbn [length map]; [|lia].
    replace (length rl + 1 - 1 - length rl)%nat with O by lia. auto. }
  rewrite Enth. cbn [nn bind fst snd].
  assert (V0 : ME_Vertex t e0 (lnot (b2z d0)) = Ok v). { cbn [path] in P1. destruct P1 as (x0 & X1 & X2 & X3 & X4). rewrite (ev_start t a e0 x0 d0 I X1). congruence. }
  assert (V1 : ME_Vertex t el (b2z dl) = Ok v').
  { rewrite Erl in P1. apply path_app in P1. destruct P1 as (u & _ & xl & Y1 & Y2 & Y3 & Y4). cbn [path] in Y4. rewrite (ev_end t a el xl dl I Y1). congruence. }
  rewrite V0. cbn [bind]. rewrite V1. cbn [bind].
  destruct (rev_test_ok t a nd v v' rv I P2 HNnd Hrv) as (rb & Erb & Enus). rewrite Erb. cbn [bind]. rewrite Enus. rewrite (new_dirs_ok t a nd v v' I P2). cbn [bind].
  assert (Lnus : ZL (if rv then rev (map fst nd) else map fst nd) = Z.of_nat (length (map zd nd))). { unfold ZL. destruct rv; rewrite ?rev_length, !map_length; auto. }
  rewrite Lnus.
  destruct (repl_tail_ok l (f_edirs x) b i n nd R Hi Hn Hnd) as (l' & w' & ER & R'); auto. { rewrite Erun. auto. }
  unfold repl_tail in ER. rewrite Erun in ER.
  rewrite zd_fst.
  destruct (repl_com l (f_edirs x) (Z.of_nat i) (ZL l) (firstn (Z.to_nat (Z.min (Z.of_nat n) (Z.of_nat (length (map zd nd))))) (map zd nd))) as [[l1 w1]| | |]; cbn [bind] in *; try discriminate.
  rewrite ER. cbn [bind]. rewrite zd_fst. rewrite <- Erun.
  assert (Trun : forall e, In e (map fst (run i n b)) -> In e (map fst b)).
  { intros e He. apply in_map_iff in He. destruct He as (q & <- & Hq). apply in_map_fst. unfold run in Hq.
    assert (HI : In q (skipn i b ++ b)). { rewrite <- (firstn_skipn n (skipn i b ++ b)). apply in_app_iff. auto. }
    apply in_app_iff in HI. destruct HI as [HI|HI]; auto. rewrite <- (firstn_skipn i b). apply in_app_iff. auto. }
  destruct (rem_faces_ok (map fst (run i n b)) (putf t f (Some (set_fedges x w' l'))) f) as (s1 & E1 & S1 & R1).
  { intros e He. ra. apply Te. apply Trun in He. rewrite Eb, vw_fst in He. auto. }
  rewrite E1. cbn [bind].
  destruct (add_faces_ok (map fst nd) s1 f) as (s2 & E2 & S2 & R2).
  { intros e He. eapply erel_some; eauto. ra. eapply live_e_some; eauto. eapply live_in; eauto. }
  rewrite E2. exists s2. split; auto.
  destruct (esame_trans _ _ _ S1 S2) as (T1 & T2 & T3 & T4).
  eapply inv_fb with (x' := set_fedges x w' l') (D := fun e => In e (map fst (run i n b))) (A := fun e => In e (map fst nd)); eauto.
  - unfold fview. cbn. rewrite Lx. do 2 f_equal. rewrite Efb. apply rep_vw. auto.
  - intros p. rewrite T2. auto.
  - eapply erel_ext. eapply erel_tes; [| |eapply erel_comp; [exact R1|exact R2]]; auto. cbn. tauto. cbn. tauto.
  - rewrite Efb. rewrite Forall_forall. intros q Hq. apply in_map_fst in Hq. apply splice_In in Hq; auto.
    + destruct Hq as [[Hq _]|Hq]. apply live_in with (b := b); auto. apply (w_fe _ W _ _ Hb). eapply live_in; eauto.
    + intros HH. destruct Hc as [|[[]|[]]]; lia.
  - rewrite Efb. auto.
  - rewrite Efb. auto.
  - intros e. rewrite Efb. rewrite splice_In; auto.
    + unfold has_edge. rewrite Hb. split.
      * intros [[(c & Hc' & HI) HN]|]; auto. inversion Hc'; subst c. auto.
      * intros [[HI HN]|]; auto. left. split; eauto.
    + intros HH. destruct Hc as [|[[]|[]]]; lia.
Qed.
