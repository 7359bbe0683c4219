(** Reading the attributes, and the whole file. *)
From Coq Require Import ZArith Bool Ascii String Floats.SpecFloat List Lia Arith ZifyBool ZifyNat.
From Verif Require Import Base BaseProofs ListSpec AttModel AttProps TopoModel TopoSpec TopoProofs TopoProofs2 TopoProofs3 TopoProofs5 TopoProps ParModel FileModel FileSpec FileProofs FileProofs2 FileProofs3 FileProofs4.
Import ListNotations.
Open Scope Z_scope.

Lemma words_len : forall s, (length (words s) <= length s)%nat.
Proof.
  induction s as [|c s IH]; [cbn; lia|]. cbn [words length]. destruct (is_space c); [lia|]. destruct s as [|d s]; [cbn; lia|].
  destruct (is_space d); [cbn [length] in *; lia|]. destruct (words (d :: s)) as [|w ws]; cbn [length] in *; lia.
Qed.
Lemma map_nth_error_inv : forall A B (f : A -> B) l k y, nth_error (map f l) k = Some y -> exists x, nth_error l k = Some x /\ f x = y.
Proof. induction l as [|x l IH]; intros [|k] y H; cbn in *; try discriminate; [inversion H; eauto|apply IH; auto]. Qed.
Lemma type_read : forall t, is_pointer t = false -> word_type (type_word t) = Ok t.
Proof. intros [] H; try discriminate; reflexivity. Qed.
Lemma ent_read : forall e, e = MALLTYPE \/ 0 <= e <= 3 -> word_ent (ent_word e) = Ok e.
Proof. intros e [-> | H]; [reflexivity|]. assert (e = 0 \/ e = 1 \/ e = 2 \/ e = 3) as [-> | [-> | [-> | ->]]] by lia; reflexivity. Qed.
Lemma floats_read : forall l i s ws acc, words s = map (fixed 6) l ++ ws -> exists s',
  foldM (fun st (_ : Z) => let '(l, s) := st in ' (x, s) <- next_f s ;; Ok (l ++ [x], s)) (acc, s) (zrange i (i + Z.of_nat (length l))) = Ok (acc ++ map (back 6) l, s') /\ words s' = ws.
Proof.
  induction l as [|x l IH]; intros i s ws acc W.
  - rewrite zrange_nil by (cbn [length]; lia). exists s. cbn. rewrite app_nil_r. auto.
  - rewrite zrange_cons by (cbn [length]; lia). cbn [foldM map app] in *. destruct (next_f_ok _ _ _ _ W) as (s1 & E1 & W1). rewrite E1. cbn [bind].
    replace (i + Z.of_nat (length (x :: l))) with (i + 1 + Z.of_nat (length l)) by (cbn [length]; lia). destruct (IH (i + 1) s1 ws (acc ++ [back 6 x]) W1) as (s2 & E2 & W2). rewrite E2. exists s2. rewrite <- app_assoc. auto.
Qed.
Lemma value_read : forall A v s ws, has_type A v -> words s = val_words v ++ ws -> exists s', r_value (at_type A) (at_ncomp A) s = Ok (back_val v, s') /\ words s' = ws.
Proof.
  intros A v s ws H W. unfold has_type in H. destruct (at_type A); destruct v as [i|x|l]; try contradiction; cbn [r_value val_words app back_val] in *.
  - destruct (next_d_ok _ _ _ W) as (s1 & E1 & W1); [unfold is_int; lia|]. rewrite E1. exists s1. auto.
  - destruct (next_f_ok _ _ _ _ W) as (s1 & E1 & W1). rewrite E1. exists s1. auto.
  - destruct (floats_read l 0 s ws [] W) as (s1 & E1 & W1). rewrite Z.add_0_l, H in E1. rewrite E1. exists s1. auto.
  - destruct (floats_read l 0 s ws [] W) as (s1 & E1 & W1). rewrite Z.add_0_l, H in E1. rewrite E1. exists s1. auto.
Qed.
Definition with_atts (m : fmesh) (l : list attr) : fmesh := mkFM (fm_t m) (fm_c m) (fm_x m) (fm_id m) (fm_v m) (fm_e m) (fm_f m) (fm_r m) l.

Section Atts.
Variables (m : fmesh) (a : amesh).
Hypothesis P : printable m a.
Definition faithful (m' : fmesh) : Prop := (forall d, kind m' d = map (phi m d) (kind m d)) /\ (forall d p, In p (kind m d) -> fm_id m' (phi m d p) = pos (kind m d) p).
Lemma phi_pos : forall d p, In p (kind m d) -> 0 < phi m d p.
Proof using. intros d p H. pose proof (pos_range _ _ H). unfold phi, base, ZL. destruct (0 <? d), (1 <? d), (2 <? d); lia. Qed.
Lemma from_id_ok : forall m' d p, faithful m' -> In p (kind m d) -> from_id m' (kind m' d) (pos (kind m d) p) = phi m d p.
Proof using.
  intros m' d p [K I] H. pose proof (pos_range _ _ H) as R. unfold from_id. rewrite K. unfold ZL in *. rewrite map_length.
  assert ((pos (kind m d) p <? 1) || (Z.of_nat (length (kind m d)) <? pos (kind m d) p) = false) as -> by lia. cbv zeta.
  rewrite (nth_indep _ NULL (phi m d NULL)) by (rewrite map_length; lia). rewrite map_nth, pos_nth by auto. rewrite I, Z.eqb_refl by auto. auto.
Qed.
Lemma r_attval_ok : forall m' A d p v vals s ws i, faithful m' -> good_attr m A -> is_pointer (at_type A) = false -> on m A d p -> at_val A p = Some v -> words s = user_words m A (d, p) ++ ws ->
  exists s', r_attval m' (at_type A) (at_ent A) (at_ncomp A) (vals, s) i = Ok (zupd vals (phi m d p) (Some (back_val v)), s') /\ words s' = ws.
Proof using P.
  intros m' A d p v vals s ws i F G PT [C Hp] V W. unfold user_words in W. cbn [fst snd app] in W. rewrite V in W. unfold r_attval. destruct C as [D C].
  destruct (first_d_ok _ _ _ W) as (s1 & E1 & W1); [unfold is_int; lia|]. rewrite E1. cbn [bind]. destruct (next_d_ok _ _ _ W1 (proj1 (int_pos _ _ P _ _ Hp))) as (s2 & E2 & W2). rewrite E2. cbn [bind].
  assert (negb (at_ent A =? d) && negb (at_ent A =? MALLTYPE) = false) as -> by lia.
  assert (HT : has_type A v) by (apply (ga_val _ _ G d p v); [intro Q; rewrite Q in PT; discriminate|split; [split; auto|auto]|auto]).
  destruct (value_read A v s2 ws HT W2) as (s3 & E3 & W3). rewrite E3. cbn [bind].
  pose proof (from_id_ok m' d p F Hp) as FI. pose proof (phi_pos d p Hp) as PP. exists s3.
  destruct (kind_cases _ _ _ Hp) as [-> | [-> | [-> | ->]]]; cbn [Z.eqb Pos.eqb kind] in *; cbn [kind Z.eqb Pos.eqb] in FI; rewrite FI; cbn [bind]; (match goal with |- context [?x =? NULL] => assert (x =? NULL = false) as -> by (unfold NULL; lia) end); auto.
Qed.
Lemma in_dec_dp : forall (x : Z * ptr) l, In x l \/ ~ In x l.
Proof using. intros x l. destruct (in_dec (fun x y : Z * ptr => ltac:(decide equality; apply Z.eq_dec)) x l); auto. Qed.
Lemma users_read : forall m' A, faithful m' -> good_attr m A -> is_pointer (at_type A) = false -> forall us vals s ws i,
  (forall d p, In (d, p) us -> on m A d p /\ at_val A p <> None) -> words s = concat (map (user_words m A) us) ++ ws ->
  exists vals' s', foldM (r_attval m' (at_type A) (at_ent A) (at_ncomp A)) (vals, s) (zrange i (i + Z.of_nat (length us))) = Ok (vals', s') /\ words s' = ws /\
    (forall q, (forall d p, In (d, p) us -> phi m d p <> q) -> vals' q = vals q) /\ (forall d p, In (d, p) us -> vals' (phi m d p) = option_map back_val (at_val A p)).
Proof using P.
  intros m' A F G PT. induction us as [|[d p] us IH]; intros vals s ws i U W.
  - rewrite zrange_nil by (cbn [length]; lia). exists vals, s. cbn. split; auto. split; auto. split; auto. intros d p [].
  - rewrite zrange_cons by (cbn [length]; lia). cbn [foldM map concat] in *. rewrite <- app_assoc in W. destruct (U d p) as [O V]; [left; auto|]. destruct (at_val A p) as [v|] eqn:Ev; [|congruence].
    destruct (r_attval_ok m' A d p v vals s _ i F G PT O Ev W) as (s1 & E1 & W1). rewrite E1. cbn [bind]. replace (i + Z.of_nat (length ((d, p) :: us))) with (i + 1 + Z.of_nat (length us)) by (cbn [length]; lia).
    destruct (IH (zupd vals (phi m d p) (Some (back_val v))) s1 ws (i + 1)) as (vals' & s2 & E2 & W2 & N2 & V2); [intros; apply U; right; auto|auto|]. rewrite E2. exists vals', s2. split; auto. split; auto. split.
    + intros q Q. rewrite N2 by (intros; apply Q; right; auto). unfold zupd. assert (q =? phi m d p = false) as -> by (specialize (Q d p (or_introl eq_refl)); lia). auto.
    + intros d' p' H. destruct (in_dec_dp (d', p') us) as [H'|H']; [apply V2; auto|]. destruct H as [H|H]; [|contradiction]. inversion H; subst d' p'.
      rewrite N2; [unfold zupd; rewrite Z.eqb_refl, Ev; auto|]. intros d1 p1 H1 E. apply phi_inj in E; [destruct E; subst; auto|apply (U d1 p1); right; auto|apply O].
Qed.
Lemma users_in : forall A d p, good_attr m A -> (In (d, p) (users m A) <-> on m A d p /\ at_val A p <> None).
Proof using.
  intros A d p G. unfold users. rewrite filter_In, (scope_on m A d p (ga_ent _ _ G)). cbn [snd]. unfold is_some. destruct (at_val A p); intuition congruence.
Qed.
Definition dropped (A : attr) : bool := is_pointer (at_type A) || (length (users m A) =? 0)%nat.
Lemma dropped_kept : forall A, good_attr m A -> (dropped A = false <-> kept m A).
Proof using.
  intros A G. unfold dropped, kept. split.
  - intro H. apply orb_false_iff in H. destruct H as [H1 H2]. split; [intro Q; rewrite Q in H1; discriminate|]. destruct (users m A) as [|[d p] us] eqn:E; [discriminate|].
    assert (Q : In (d, p) (users m A)) by (rewrite E; left; auto). apply (users_in A d p G) in Q. destruct Q as [O V]. destruct (at_val A p) as [v|] eqn:Ev; [|congruence]. exists d, p, v. auto.
  - intros (T & d & p & v & O & V). assert (Q : In (d, p) (users m A)) by (apply (users_in A d p G); split; auto; congruence). apply orb_false_iff. split; [destruct (at_type A); auto; congruence|]. destruct (users m A); [destruct Q|reflexivity].
Qed.
Lemma att_read : forall A vals, good_attr m A -> is_pointer (at_type A) = false ->
  (forall q, (forall d p, In (d, p) (users m A) -> phi m d p <> q) -> vals q = None) -> (forall d p, In (d, p) (users m A) -> vals (phi m d p) = option_map back_val (at_val A p)) ->
  att_copy m (phi m) A (mkAttr (at_name A) (at_type A) (if match at_type A with TVECTOR | TTENSOR => true | _ => false end then at_ncomp A else 1) (at_ent A) vals).
Proof using.
  intros A vals G PT N V. constructor; cbn [at_name at_type at_ncomp at_ent at_val]; auto.
  - pose proof (ga_ncomp _ _ G). destruct (at_type A); auto.
  - intros d p O. destruct (at_val A p) as [v|] eqn:E.
    + rewrite V; [rewrite E; auto|]. apply users_in; auto. split; auto. congruence.
    + apply N. intros d' p' Q Eq. apply (users_in A d' p' G) in Q. destruct Q as [O' V']. apply phi_inj in Eq; [destruct Eq; subst; congruence|apply O'|apply O].
  - intros q Q. apply N. intros d p H. apply (users_in A d p G) in H. apply Q. apply H.
Qed.
Lemma r_attribs_ok : forall l fuel m' s, faithful m' -> Forall (good_attr m) l -> words s = concat (map (attr_words m) l) -> (length (words s) < fuel)%nat ->
  exists l', r_attribs fuel m' s = Ok (with_atts m' (fm_atts m' ++ l')) /\ atts_copy m (phi m) l l'.
Proof using P.
  induction l as [|A l IH]; intros fuel m' s F G W L.
  - cbn [map concat] in W. destruct fuel as [|fuel]; [lia|]. cbn [r_attribs]. rewrite scan_s_none by auto. cbn [bind]. exists []. rewrite app_nil_r. split; [destruct m'; auto|constructor].
  - inversion G as [|? ? GA GL]; subst. cbn [map concat] in W. destruct (dropped A) eqn:DR.
    + destruct (IH fuel m' s F GL) as (l' & E & C); [rewrite W; unfold attr_words; unfold dropped in DR; rewrite DR; auto|auto|]. exists l'. split; auto. constructor; auto. rewrite <- dropped_kept by auto. congruence.
    + pose proof DR as DR'. apply orb_false_iff in DR'. destruct DR' as [PT NU]. unfold attr_words at 1 in W. unfold dropped in DR. rewrite DR in W. fold (dropped A) in DR. cbn [app] in W.
      destruct fuel as [|fuel]; [lia|]. cbn [r_attribs]. destruct (ga_name _ _ GA) as (N1 & N2 & N3).
      destruct (scan_s_ok 256 _ _ _ W N3) as (s1 & E1 & W1). rewrite E1. cbn [bind]. destruct (first_s_ok 256 _ _ _ W1 (proj2 (type_wordy _))) as (s2 & E2 & W2). rewrite E2. cbn [bind]. rewrite type_read by auto. cbn [bind].
      pose proof (ga_ncomp _ _ GA) as NC. destruct (first_d_ok _ _ _ W2) as (s3 & E3 & W3); [unfold is_int; destruct (at_type A); lia|]. rewrite E3. cbn [bind]. cbv zeta.
      set (vec := match at_type A with TVECTOR | TTENSOR => true | _ => false end).
      assert (vec && (at_ncomp A =? 0) = false) as -> by (unfold vec; destruct (at_type A); lia).
      destruct (first_s_ok 256 _ _ _ W3 (proj2 (ent_wordy _))) as (s4 & E4 & W4). rewrite E4. cbn [bind]. rewrite ent_read by apply (ga_ent _ _ GA). cbn [bind].
      pose proof (users_len m A) as UL. pose proof (pr_size _ _ P) as SZ.
      destruct (first_d_ok _ _ _ W4) as (s5 & E5 & W5); [unfold is_int; lia|]. rewrite E5. cbn [bind]. assert (Z.of_nat (length (users m A)) <? 1 = false) as -> by lia.
      assert (vec && (at_ncomp A <? 0) = false) as -> by (unfold vec; destruct (at_type A); lia).
      destruct (users_read m' A F GA PT (users m A) (fun _ => None) s5 (concat (map (attr_words m) l)) 0) as (vals & s6 & E6 & W6 & N6 & V6); [intros d p H; apply users_in; auto|auto|].
      rewrite Z.add_0_l in E6. rewrite E6. cbn [bind]. 
      edestruct (IH fuel) as (l' & E & C); [| |exact W6| |].
      4: { rewrite E. eexists. split; [|apply atts_keep; [apply dropped_kept; auto|apply (att_read A vals GA PT N6 V6)|exact C]]. unfold with_atts. cbn [fm_t fm_c fm_x fm_id fm_v fm_e fm_f fm_r fm_atts]. rewrite <- app_assoc. reflexivity. }
      * exact F.
      * exact GL.
      * assert (LW : (length (words s6) < length (words s))%nat); [|lia]. rewrite W, W6. cbn [length]. rewrite app_length. lia.
Qed.
End Atts.

Section All.
Variables (m : fmesh) (a : amesh).
Hypothesis P : printable m a.
Lemma copied_faithful : forall L m' a', copied m a L m' a' -> (forall d, L d = kind m d) -> faithful m m'.
Proof using.
  intros L m' a' [CI CT] E. split; intros.
  - rewrite (q_kind _ _ _ _ CI), E. auto.
  - apply (q_id _ _ _ _ CI). rewrite E. auto.
Qed.
Lemma copied_file : forall L m' a' l, copied m a L m' a' -> (forall d, L d = kind m d) -> atts_copy m (phi m) (fm_atts m) l -> file_copy m (with_atts m' l) a a' (phi m).
Proof using P.
  intros L m' a' l C E AC. pose proof (copied_faithful _ _ _ C E) as [FK FI]. destruct C as [CI CT].
  assert (K : forall d, kind (with_atts m' l) d = map (phi m d) (kind m d)) by (intro d; rewrite <- FK; reflexivity).
  pose proof (K 0) as K0. pose proof (K 1) as K1. pose proof (K 2) as K2. pose proof (K 3) as K3. change (fm_v (with_atts m' l) = map (phi m 0) (kind m 0)) in K0.
  change (fm_e (with_atts m' l) = map (phi m 1) (kind m 1)) in K1. change (fm_f (with_atts m' l) = map (phi m 2) (kind m 2)) in K2. change (fm_r (with_atts m' l) = map (phi m 3) (kind m 3)) in K3.
  assert (ND : forall d, NoDup (map (phi m d) (kind m d))).
  { intro d. assert (S : forall x, In x (kind m d) -> In x (kind m d)) by auto. pose proof (pr_nd _ _ P d) as N. revert S N. generalize (kind m d) at 1 3 4 as k. induction k as [|p k IH]; intros S N; [constructor|]. inversion N; subst. cbn [map]. constructor.
    - intro Q. apply in_map_iff in Q. destruct Q as (q & Eq & Q). apply phi_inj in Eq; [destruct Eq; subst; auto|apply S; right; auto|apply S; left; auto].
    - apply IH; auto. intros; apply S; right; auto. }
  assert (DJ : forall d d' x, d <> d' -> In x (map (phi m d) (kind m d)) -> In x (map (phi m d') (kind m d')) -> False).
  { intros d d' x D X Y. apply in_map_iff in X. apply in_map_iff in Y. destruct X as (p & X1 & X2). destruct Y as (q & Y1 & Y2). apply D. apply (phi_inj m d p d' q); auto. congruence. }
  constructor; try exact K.
  - exact (t_reach _ _ _ _ _ CT).
  - rewrite K0, K1, K2, K3. apply NoDup_app_intro'; auto; [apply NoDup_app_intro'; auto; [apply NoDup_app_intro'; auto|]|].
    + intros x X Y. apply (DJ 2 3 x); auto. lia.
    + intros x X Y. apply in_app_or in Y. destruct Y as [Y|Y]; [apply (DJ 1 2 x)|apply (DJ 1 3 x)]; auto; lia.
    + intros x X Y. apply in_app_or in Y. destruct Y as [Y|Y]; [apply (DJ 0 1 x); auto; lia|]. apply in_app_or in Y. destruct Y as [Y|Y]; [apply (DJ 0 2 x)|apply (DJ 0 3 x)]; auto; lia.
  - intro q. rewrite K0, <- E. apply (t_v _ _ _ _ _ CT).
  - intro q. rewrite K1, <- E. apply (t_e _ _ _ _ _ CT).
  - intro q. rewrite K2, <- E. apply (t_f _ _ _ _ _ CT).
  - intro q. rewrite K3, <- E. apply (t_r _ _ _ _ _ CT).
  - intros e v0 v1 H. apply (t_ends _ _ _ _ _ CT); auto. rewrite E. apply (pr_e _ _ P). eexists; eauto.
  - intros f b H. apply (t_loop _ _ _ _ _ CT); auto. rewrite E. apply (pr_f _ _ P). eexists; eauto.
  - intros f b H. apply (t_faces _ _ _ _ _ CT); auto. rewrite E. apply (pr_r _ _ P). eexists; eauto.
  - intros v x y z H X. change (fm_x m' (phi m 0 v) = (back 16 x, back 16 y, back 16 z)). rewrite (q_x _ _ _ _ CI) by (rewrite E; exact H). rewrite X. reflexivity.
  - intros d p H. apply (q_c _ _ _ _ CI). rewrite E. auto.
  - intros d k q H. rewrite K in H. apply map_nth_error_inv in H. destruct H as (p & H & <-). change (fm_id m' (phi m d p) = Z.of_nat k + 1). rewrite FI by (eapply nth_error_In; eauto).
    pose proof (nth_error_In _ _ H) as Hp. pose proof (pos_range _ _ Hp) as R. pose proof (pos_nth _ _ Hp) as PN. pose proof (pr_nd _ _ P d) as N.
    assert (Z.to_nat (pos (kind m d) p - 1) = k); [|lia]. rewrite NoDup_nth in N. apply (N _ _); [unfold ZL in R; lia|apply nth_error_Some; congruence|]. rewrite PN. symmetry. apply nth_error_nth. auto.
  - exact AC.
Qed.
Lemma r_tail_atts : forall L m' a' s, copied m a L m' a' -> (forall d, L d = kind m d) -> words s = concat (map (attr_words m) (fm_atts m)) ->
  exists m'', r_tail m' (str "attributes") s = Ok (Some m'') /\ file_copy m m'' a a' (phi m).
Proof using P.
  intros L m' a' s C E W. pose proof (copied_faithful _ _ _ C E) as F. pose proof (words_len s) as WL. unfold r_tail.
  destruct (r_attribs_ok m a P (fm_atts m) (S (length s)) m' s F (pr_atts _ _ P) W) as (l & E1 & AC); [lia|].
  change (starts (str "adjregions") (str "attributes")) with false. change (starts (str "attributes") (str "attributes")) with true. cbv iota. rewrite E1. cbn [bind]. eexists. split; [reflexivity|]. rewrite (q_at _ _ _ _ (cp_i _ _ _ _ _ C)). cbn [app]. eapply copied_file; eauto.
Qed.
(** After the faces: regions, if any, and attributes, if any. *)
Definition rest_words : list text :=
  (match fm_r m with [] => [] | _ => str "regions" :: str "face" :: concat (map (fun r => bwords m (fm_f m) (rbdry a r) r) (fm_r m)) end) ++
  (match fm_atts m with [] => [] | _ => str "attributes" :: concat (map (attr_words m) (fm_atts m)) end).
Lemma stage_end : forall L, stage m 3 L -> L 3 = kind m 3 -> forall d, L d = kind m d.
Proof using.
  intros L [A B] E d. destruct (Z_lt_ge_dec d 3); [auto|]. destruct (Z.eq_dec d 3) as [->|]; auto. rewrite B by lia. unfold kind.
  destruct (Z.eqb_spec d 0), (Z.eqb_spec d 1), (Z.eqb_spec d 2), (Z.eqb_spec d 3); try lia; auto.
Qed.
Lemma rest_ok : forall L m' a' s, copied m a L m' a' -> stage m 3 L -> L 3 = [] -> words s = rest_words ->
  exists m'' a'', (o <- scan_s 256 s ;; match o with None => if ZL (fm_r m) =? 0 then Ok (Some m') else Fatal | Some (w, s) => r_regions m' (ZL (fm_r m)) w s end) = Ok (Some m'') /\ file_copy m m'' a a' (phi m) \/
    (o <- scan_s 256 s ;; match o with None => if ZL (fm_r m) =? 0 then Ok (Some m') else Fatal | Some (w, s) => r_regions m' (ZL (fm_r m)) w s end) = Ok (Some m'') /\ file_copy m m'' a a'' (phi m).
Proof using P.
  intros L m' a' s C ST L3 W. unfold rest_words in W.
  destruct (fm_r m) as [|r0 r1] eqn:ER.
  - assert (LE : forall d, L d = kind m d) by (apply stage_end; auto; cbn [kind Z.eqb Pos.eqb]; congruence). cbn [app] in W. destruct (fm_atts m) as [|A0 A1] eqn:EA.
    + rewrite scan_s_none by auto. cbn [bind]. change (ZL [] =? 0) with true. cbv iota. exists m', a'. left. split; auto. replace m' with (with_atts m' (fm_atts m')) by (destruct m'; auto).
      apply (copied_file L); auto. rewrite (q_at _ _ _ _ (cp_i _ _ _ _ _ C)), EA. constructor.
    + destruct (scan_s_ok 256 _ _ _ W) as (s1 & E1 & W1); [vm_compute; reflexivity|]. rewrite E1. cbn [bind]. rewrite <- EA in W1. destruct (r_tail_atts L m' a' s1 C LE W1) as (m2 & E2 & F2).
      exists m2, a'. left. split; auto.
  - rewrite <- ER in *. cbn [app] in W. destruct (scan_s_ok 256 _ _ _ W) as (s1 & E1 & W1); [vm_compute; reflexivity|]. rewrite E1. cbn [bind].
    destruct (first_s_ok 16 _ _ _ W1) as (s2 & E2 & W2); [vm_compute; reflexivity|]. unfold r_regions. change (starts (str "region") (str "regions")) with true. cbv iota. rewrite E2. cbn [bind].
    change (starts (str "face") (str "face")) with true. cbv iota.
    destruct (loop_ok m a 3 r_region (fun r => bwords m (fm_f m) (rbdry a r) r) (r_region_ok m a P) (kind m 3) L m' a' s2 _ C ST ltac:(rewrite L3; auto) W2) as (L' & m3 & a3 & s3 & E3 & C3 & ST3 & K3 & W3).
    rewrite L3 in E3. change (ZL []) with 0 in E3. change (kind m 3) with (fm_r m) in E3. rewrite E3. cbn [bind]. pose proof (stage_end _ ST3 K3) as LE.
    destruct (fm_atts m) as [|A0 A1] eqn:EA.
    + rewrite scan_s_none by auto. cbn [bind]. exists m3, a3. right. split; auto. replace m3 with (with_atts m3 (fm_atts m3)) by (destruct m3; auto).
      apply (copied_file L'); auto. rewrite (q_at _ _ _ _ (cp_i _ _ _ _ _ C3)), EA. constructor.
    + destruct (scan_s_ok 256 _ _ _ W3) as (s4 & E4 & W4); [vm_compute; reflexivity|]. rewrite E4. cbn [bind]. rewrite <- EA in W4. destruct (r_tail_atts L' m3 a3 s4 C3 LE W4) as (m5 & E5 & F5).
      exists m5, a3. right. split; auto.
Qed.
Lemma read_ok : forall s, words s = file_words m a -> exists m' a', MESH_InitFromFile s = Ok (Some m') /\ file_copy m m' a a' (phi m).
Proof using P.
  intros s W. unfold file_words in W. fold rest_words in W. cbn [app] in W. pose proof (pr_size _ _ P) as SZ. unfold MESH_InitFromFile.
  destruct (scan_s_ok 256 _ _ _ W) as (s1 & E1 & W1); [vm_compute; reflexivity|]. rewrite E1. cbn [bind]. change (text_eqb (str "MSTK") (str "MSTK")) with true. cbn [negb].
  change (str "1.0") with (fixed 1 (S754_finite false 1 0)) in W1. destruct (next_f_ok _ _ _ _ W1) as (s2 & E2 & W2). rewrite E2. cbn [bind].
  destruct (first_s_ok 16 _ _ _ W2) as (s3 & E3 & W3); [vm_compute; reflexivity|]. rewrite E3. cbn [bind].
  assert (SZ4 : is_int (ZL (fm_v m)) /\ is_int (ZL (fm_e m)) /\ is_int (ZL (fm_f m)) /\ is_int (ZL (fm_r m))) by (unfold is_int, ZL; lia). destruct SZ4 as (SV & SE & SF & SR).
  destruct (next_d_ok _ _ _ W3 SV) as (s4 & E4 & W4). rewrite E4. cbn [bind]. destruct (next_d_ok _ _ _ W4 SE) as (s5 & E5 & W5). rewrite E5. cbn [bind].
  destruct (next_d_ok _ _ _ W5 SF) as (s6 & E6 & W6). rewrite E6. cbn [bind]. destruct (next_d_ok _ _ _ W6 SR) as (s7 & E7 & W7). rewrite E7. cbn [bind].
  change (existsb (fun u => starts (str u) (str "F1")) ["F4"; "R1"; "R2"; "R4"]%string) with false. change (negb (starts (str "F1") (str "F1"))) with false. cbv iota.
  destruct (first_s_ok 256 _ _ _ W7) as (s8 & E8 & W8); [vm_compute; reflexivity|]. rewrite E8. cbn [bind]. change (negb (starts (str "vertices") (str "vertices"))) with false. cbv iota.
  assert ((ZL (fm_v m) <? 0) || (ZL (fm_e m) <? 0) || (ZL (fm_f m) <? 0) || (ZL (fm_r m) <? 0) = false) as -> by (unfold ZL; lia).
  assert (ST0 : stage m 0 (fun _ => [])).
  { split; intros d D; auto. unfold kind. destruct (Z.eqb_spec d 0), (Z.eqb_spec d 1), (Z.eqb_spec d 2), (Z.eqb_spec d 3); try lia; auto. }
  destruct (loop_ok m a 0 r_vertex (vwords m) (r_vertex_ok m a P) (kind m 0) (fun _ => []) _ _ s8 _ (copied_start m a) ST0 eq_refl W8) as (L1 & m1 & a1 & s9 & E9 & C1 & ST1 & K1 & W9).
  change (ZL []) with 0 in E9. change (kind m 0) with (fm_v m) in E9. rewrite E9. cbn [bind].
  destruct (scan_s_ok 256 _ _ _ W9) as (s10 & E10 & W10); [vm_compute; reflexivity|]. rewrite E10. cbn [bind]. unfold r_edges. change (starts (str "adjvertices") (str "edges")) with false. change (starts (str "edges") (str "edges")) with true. cbv iota.
  destruct (stage_next _ _ _ ST1 K1) as [ST1' L10]. change (0 + 1) with 1 in ST1', L10.
  destruct (loop_ok m a 1 r_edge (ewords m a) (r_edge_ok m a P) (kind m 1) L1 _ _ s10 _ C1 ST1' ltac:(rewrite L10; auto) W10) as (L2 & m2 & a2 & s11 & E11 & C2 & ST2 & K2 & W11).
  rewrite L10 in E11. change (ZL []) with 0 in E11. change (kind m 1) with (fm_e m) in E11. rewrite E11. cbn [bind].
  destruct (scan_s_ok 256 _ _ _ W11) as (s12 & E12 & W12); [vm_compute; reflexivity|]. rewrite E12. cbn [bind]. unfold r_faces. change (starts (str "face") (str "faces")) with true. cbv iota.
  destruct (first_s_ok 16 _ _ _ W12) as (s13 & E13 & W13); [vm_compute; reflexivity|]. rewrite E13. cbn [bind]. change (starts (str "edge") (str "edge")) with true. cbv iota.
  destruct (stage_next _ _ _ ST2 K2) as [ST2' L20]. change (1 + 1) with 2 in ST2', L20.
  destruct (loop_ok m a 2 r_face (fun f => bwords m (fm_e m) (fbdry a f) f) (r_face_ok m a P) (kind m 2) L2 _ _ s13 _ C2 ST2' ltac:(rewrite L20; auto) W13) as (L3 & m3 & a3 & s14 & E14 & C3 & ST3 & K3 & W14).
  rewrite L20 in E14. change (ZL []) with 0 in E14. change (kind m 2) with (fm_f m) in E14. rewrite E14. cbn [bind].
  destruct (stage_next _ _ _ ST3 K3) as [ST3' L30]. change (2 + 1) with 3 in ST3', L30.
  destruct (rest_ok L3 m3 a3 s14 C3 ST3' L30 W14) as (m4 & a4 & [[E15 F] | [E15 F]]); rewrite E15; eauto.
Qed.
End All.
