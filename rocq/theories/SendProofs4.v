(** Sending and receiving attributes and sets. *)
From Coq Require Import ZArith Bool Ascii String Floats.SpecFloat List Lia Arith ZifyBool ZifyNat.
From Verif Require Import Base BaseProofs ListSpec AttModel AttProps TopoModel TopoSpec TopoProofs TopoProofs2 TopoProofs3 TopoProofs5 TopoProps ParModel SortModel BuildProofs3 FileModel FileSpec FileProofs FileProofs2 FileProofs3 FileProofs4 SendModel SendSpec SendProofs SendProofs2 SendProofs3.
Import ListNotations.
Open Scope Z_scope.

(** ** An address is of one kind *)
Record sep (a : amesh) : Prop := mkSep {
  p_v : forall p, a_v a p <> None -> p < a_next a /\ a_e a p = None /\ a_f a p = None /\ a_r a p = None;
  p_e : forall p, a_e a p <> None -> p < a_next a /\ a_f a p = None /\ a_r a p = None;
  p_f : forall p, a_f a p <> None -> p < a_next a /\ a_r a p = None;
  p_r : forall p, a_r a p <> None -> p < a_next a }.
Definition smaller (b a : amesh) : Prop := a_next b = a_next a /\ forall p, (a_v a p = None -> a_v b p = None) /\ (a_e a p = None -> a_e b p = None) /\ (a_f a p = None -> a_f b p = None) /\ (a_r a p = None -> a_r b p = None).
Lemma sep_smaller : forall a b, sep a -> smaller b a -> sep b.
Proof.
  intros a b [V E F R] [N H]. constructor; intros p X; rewrite N; destruct (H p) as (H1 & H2 & H3 & H4).
  - destruct (V p) as (? & ? & ? & ?); auto 7.
  - destruct (E p) as (? & ? & ?); auto 7.
  - destruct (F p) as (? & ?); auto 7.
  - auto.
Qed.
Lemma sep_step : forall a o, sep a -> sep (astep a o).
Proof.
  intros a o W.
  assert (S0 : o = TNewV \/ o = TNewE \/ o = TNewF \/ o = TNewR \/ smaller (astep a o) a).
  { destruct o; [left; reflexivity|right; left; reflexivity|do 2 right; left; reflexivity|do 3 right; left; reflexivity|..]; do 4 right; cbn [astep]; unfold set_fb, set_rb, kill, revive, with_v, with_e, with_f, with_r;
      try (destruct (existsb _ _); [|split; [reflexivity|tauto]]); (split; [reflexivity|]); intro p0; cbn [a_v a_e a_f a_r]; unfold upd;
      (split; [|split; [|split]]); intro Q; auto;
      repeat match goal with |- context [if ?c then _ else _] => destruct c eqn:?; subst end; auto;
      repeat match goal with H : (_ =? _) = true |- _ => apply Z.eqb_eq in H; subst end; try rewrite Q; auto; try congruence. }
  assert (NV : a_v a (a_next a) = None) by (destruct (a_v a (a_next a)) eqn:Q; auto; destruct (p_v _ W (a_next a) ltac:(congruence)); lia).
  assert (NE : a_e a (a_next a) = None) by (destruct (a_e a (a_next a)) eqn:Q; auto; destruct (p_e _ W (a_next a) ltac:(congruence)); lia).
  assert (NF : a_f a (a_next a) = None) by (destruct (a_f a (a_next a)) eqn:Q; auto; destruct (p_f _ W (a_next a) ltac:(congruence)); lia).
  assert (NR : a_r a (a_next a) = None) by (destruct (a_r a (a_next a)) eqn:Q; auto; pose proof (p_r _ W (a_next a) ltac:(congruence)); lia).
  destruct S0 as [-> | [-> | [-> | [-> | H]]]]; [| | | |eapply sep_smaller; eauto]; destruct W as [V E F R];
    (constructor; intros p X; cbn [astep bump with_v with_e with_f with_r a_v a_e a_f a_r a_next] in *; unfold upd in *; destruct (Z.eqb_spec p (a_next a)) as [EQ|NEQ]; try subst p;
     try (specialize (V _ X)); try (specialize (E _ X)); try (specialize (F _ X)); try (specialize (R _ X)); intuition (auto; try lia; try congruence)).
Qed.
Lemma reach_sep : forall t a, reach t a -> sep a.
Proof.
  intros t a (ops & _ & _ & ->). assert (G : forall ops a, sep a -> sep (arun a ops)) by (induction ops0 as [|o ops0 IH]; intros; cbn; auto; apply IH, sep_step; auto).
  apply G. constructor; cbn; intros; congruence.
Qed.

(** ** Lists *)
Lemma mapM_rda : forall A (pre c post : list A) k n, k = Z.of_nat (length pre) -> n = Z.of_nat (length c) -> mapM (fun j => rda (pre ++ c ++ post) (k + j)) (zrange 0 n) = Ok c.
Proof.
  intros A pre c post k n Hk ->. destruct c as [|x0 c'] eqn:Ec; [auto|]. rewrite <- Ec.
  rewrite (mapM_ok _ _ _ (fun j => nth (Z.to_nat j) c x0)).
  - f_equal. rewrite (map_zrange _ _ (fun x => x) c x0). apply map_id.
  - intros j Hj. apply TopoProofs6.zrange_in in Hj. apply rda_mid; auto; [lia|]. apply nth_error_nth'. lia.
Qed.
Lemma starts_eq : forall w s, length w = length s -> starts w s = true -> w = s.
Proof. induction w as [|c w IH]; intros [|d s] L H; cbn in *; auto; try discriminate. apply andb_true_iff in H. destruct H as [H1 H2]. apply Ascii.eqb_eq in H1. f_equal; auto. Qed.
Lemma text_eqb_eq : forall x y, text_eqb x y = true -> x = y.
Proof. intros x y H. unfold text_eqb in H. apply andb_true_iff in H. destruct H as [H1 H2]. apply Nat.eqb_eq in H1. apply starts_eq; auto. Qed.
Lemma upd_mid : forall A (l1 : list A) x l2 y, upd_nth (l1 ++ x :: l2) (length l1) y = l1 ++ y :: l2.
Proof. induction l1; intros; cbn; auto. f_equal. auto. Qed.
Lemma filter_one : forall A (f : A -> bool) l x, NoDup l -> In x l -> (forall y, In y l -> f y = true <-> y = x) -> filter f l = [x].
Proof.
  induction l as [|z l IH]; intros x N H E; [destruct H|]. inversion N as [|? ? N1 N2]; subst. cbn [filter]. destruct (f z) eqn:Fz.
  - apply E in Fz; [|left; auto]. subst z. f_equal. destruct (filter f l) as [|y r] eqn:Q; auto. exfalso. assert (In y (filter f l)) by (rewrite Q; left; auto). apply filter_In in H0. destruct H0 as [H1 H2]. apply E in H2; [|right; auto]. subst. auto.
  - destruct H as [->|H]; [exfalso; assert (f x = true) by (apply E; [left; auto|auto]); congruence|]. apply IH; auto. intros y Hy. apply E. right. auto.
Qed.
Lemma F2_len : forall A B (R : A -> B -> Prop) l l', Forall2 R l l' -> length l = length l'.
Proof. induction 1; cbn; auto. Qed.
Lemma att_ents_kind : forall m d, 0 <= d <= 3 -> att_ents m d = Some (kind m d).
Proof. intros m d H. unfold att_ents, kind, MVERTEX, MEDGE, MFACE, MREGION. destruct (d =? 0) eqn:?, (d =? 1) eqn:?, (d =? 2) eqn:?, (d =? 3) eqn:?; auto; lia. Qed.
Lemma set_atts_nil : forall s, fm_atts (sm_m s) = [] -> set_atts s [] = s.
Proof. intros [[] ? ?] H. cbn in *. subst. auto. Qed.
Lemma set_sets_nil : forall s, sm_sets s = [] -> set_sets s [] = s.
Proof. intros [] H. cbn in *. subst. auto. Qed.
Lemma forallb_short : forall A (f : A -> text) l, Forall (fun x => short (f x)) l -> forallb (fun x => short_name (f x)) l = true.
Proof. intros A f l H. apply forallb_forall. rewrite Forall_forall in H. intros x Hx. specialize (H x Hx). unfold short in H. unfold short_name. lia. Qed.

Section Atts.
Variables (s : smesh) (a : amesh).
Hypothesis P : outgoing s a true.
Notation K := (skind s).
Notation ph := (phi (m0 s)).

(** ** Sending *)
Definition awl (x : attr) : Z := 64 * at_ncomp x + (8 * at_ent x + type_code (at_type x)).
Definition ival (x : attr) (p : ptr) : Z := match at_val x p with Some (AInt i) => i | _ => 0 end.
Definition dval (x : attr) (p : ptr) : spec_float := match at_val x p with Some (ADbl d) => d | _ => S754_zero false end.
Definition vval (x : attr) (p : ptr) : list spec_float := match at_val x p with Some (AVec l) => l | _ => [] end.
Definition gids (d : Z) : list Z := map (fun p => pi_gid (sm_p s p)) (K d).
Definition amsgs (x : attr) : list msg :=
  match at_type x, att_ents (sm_m s) (at_ent x) with
  | TPOINTER, _ | _, None => []
  | TINT, Some l => [MInts (gids (at_ent x)); MInts (map (ival x) l)]
  | TDOUBLE, Some l => [MInts (gids (at_ent x)); MDbls (map (dval x) l)]
  | _, Some l => [MInts (gids (at_ent x)); MDbls (flat_map (vval x) l)]
  end.
Definition xmeta {A} (l : list A) (info : list Z) (names : list text) : list msg := MInts [Z.of_nat (length l)] :: if Z.of_nat (length l) =? 0 then [] else [MInts info; MNames names].
Lemma sent_filter : forall l, filter (fun x => negb (is_pointer (at_type x))) l = filter (fun a => match at_type a with TPOINTER => false | _ => true end) l.
Proof using. intro l. apply filter_ext. intro x. destruct (at_type x); auto. Qed.
Lemma good_ent : forall x, good_satt s x -> 0 <= at_ent x < 8.
Proof using. intros x G. destruct (gs_ent _ _ G) as [-> | H]; [unfold MALLTYPE; lia|lia]. Qed.
Lemma good_n : forall x, good_satt s x -> 1 <= at_ncomp x < 2 ^ 25.
Proof using. intros x G. pose proof (gs_ncomp _ _ G) as H. destruct (at_type x); lia. Qed.
Lemma tc_range : forall t, 0 <= type_code t < 8.
Proof using. destruct t; cbn; lia. Qed.
Lemma s_attmeta_ok : s_attmeta s = Ok (xmeta (sent_atts s) (map awl (sent_atts s)) (map at_name (sent_atts s))).
Proof using P.
  destruct (sd_att _ _ _ P eq_refl) as (G & Sh & _). unfold s_attmeta. change (fm_atts (sm_m s)) with (satts s). rewrite forallb_short by auto. cbn [negb]. rewrite sent_filter. fold (sent_atts s).
  rewrite (mapM_ok _ _ _ awl); [reflexivity|]. intros x Hx. rewrite Forall_forall in G. pose proof (G x Hx) as Gx. pose proof (good_ent x Gx). pose proof (good_n x Gx). pose proof (tc_range (at_type x)).
  rewrite ck32_ok by (rewrite Z.shiftl_mul_pow2 by lia; lia). cbn [bind]. rewrite <- Z.lor_assoc. rewrite (lor_add (at_ent x)) by lia. change (2 ^ 3) with 8. rewrite lor_add by (change (2 ^ 6) with 64; lia). reflexivity.
Qed.
Lemma in_good : forall x, In x (satts s) -> is_pointer (at_type x) = false -> good_satt s x.
Proof using P.
  intros x Hx T. destruct (sd_att _ _ _ P eq_refl) as (G & _). rewrite Forall_forall in G. apply G. unfold sent_atts. apply filter_In. split; auto. destruct (at_type x); auto.
Qed.
Lemma vval_len : forall x p, good_satt s x -> 0 <= at_ent x <= 3 -> In p (K (at_ent x)) -> (at_type x = TVECTOR \/ at_type x = TTENSOR) -> at_val x p = Some (AVec (vval x p)) /\ Z.of_nat (length (vval x p)) = at_ncomp x.
Proof using.
  intros x p G E H T. unfold vval. destruct (at_val x p) as [v|] eqn:Ev.
  - pose proof (gs_val _ _ G p v E H Ev) as HT. unfold has_type in HT. destruct T as [T|T]; rewrite T in HT; destruct v; try contradiction; auto.
  - destruct (gs_vec _ _ G p E H Ev); destruct T; congruence.
Qed.
Lemma s_attr_ok : forall x, In x (satts s) -> s_attr s x = Ok (amsgs x).
Proof using P.
  intros x Hx. unfold s_attr, amsgs. destruct (is_pointer (at_type x)) eqn:T; [destruct (at_type x); try discriminate; auto|].
  pose proof (in_good x Hx T) as G. destruct (gs_ent _ _ G) as [E|E].
  - rewrite E. change (att_ents (sm_m s) MALLTYPE) with (@None (list ptr)). destruct (at_type x); auto.
  - rewrite att_ents_kind by auto. change (kind (sm_m s) (at_ent x)) with (K (at_ent x)). pose proof (good_n x G) as N. rewrite ck32_ok by (pose proof (gs_size _ _ G E); assert (0 <= ZL (K (at_ent x))) by (unfold ZL; lia); nia). cbn [bind].
    pose proof (gs_ncomp _ _ G) as NC. fold (gids (at_ent x)).
    assert (VEC : at_type x = TVECTOR \/ at_type x = TTENSOR -> packM (get_vec x) (K (at_ent x)) = Ok (flat_map (vval x) (K (at_ent x)))).
    { intro TV. apply packM_ok. intros p Hp. destruct (vval_len x p G E Hp TV) as [V1 V2]. unfold get_vec. rewrite V1. pose proof (mapM_rda _ [] (vval x p) [] 0 (at_ncomp x) eq_refl (eq_sym V2)) as M. rewrite app_nil_r in M. exact M. }
    destruct (at_type x) eqn:Tx; try discriminate.
    + rewrite NC. cbn [Z.eqb Pos.eqb negb]. rewrite (mapM_ok _ _ _ (ival x)); [reflexivity|]. intros p Hp. unfold get_int, ival. destruct (at_val x p) as [v|] eqn:Ev; auto. pose proof (gs_val _ _ G p v E Hp Ev) as HT. unfold has_type in HT. rewrite Tx in HT. destruct v; auto; contradiction.
    + rewrite NC. cbn [Z.ltb Z.compare Pos.compare Pos.compare_cont Z.eqb Pos.eqb]. rewrite (mapM_ok _ _ _ (dval x)); [reflexivity|]. intros p Hp. unfold get_dbl, dval. rewrite Tx. destruct (at_val x p) as [v|] eqn:Ev; auto. pose proof (gs_val _ _ G p v E Hp Ev) as HT. unfold has_type in HT. rewrite Tx in HT. destruct v; auto; contradiction.
    + assert (at_ncomp x <? 1 = false) as -> by lia. assert (at_ncomp x =? 1 = false) as -> by lia. rewrite VEC by auto. reflexivity.
    + assert (at_ncomp x <? 1 = false) as -> by lia. assert (at_ncomp x =? 1 = false) as -> by lia. rewrite VEC by auto. reflexivity.
Qed.
Lemma sent_msgs : flat_map amsgs (satts s) = flat_map amsgs (sent_atts s).
Proof using.
  unfold sent_atts. induction (satts s) as [|x l IH]; auto. cbn [flat_map filter]. rewrite IH. destruct (at_type x) eqn:T; auto. unfold amsgs at 1. rewrite T. auto.
Qed.
Lemma ent_dim_ok : forall d p, In p (K d) -> ent_dim (sm_t s) p = Ok d.
Proof using P.
  intros d p H. pose proof (reach_inv _ _ (sd_reach _ _ _ P)) as I. pose proof (reach_sep _ _ (sd_reach _ _ _ P)) as W. unfold ent_dim.
  pose proof (i_v _ _ I p) as QV. pose proof (i_e _ _ I p) as QE. pose proof (i_f _ _ I p) as QF. pose proof (i_r _ _ I p) as QR.
  destruct (kind_cases _ _ _ H) as [-> | [-> | [-> | ->]]].
  - apply (sd_v _ _ _ P) in H. unfold live_v in H. rewrite H in QV. destruct (tvs (sm_t s) p) as [x|]; cbn in QV; [|discriminate]. inversion QV as [Q]. rewrite Q. auto.
  - apply (sd_e _ _ _ P) in H. destruct H as [y H]. rewrite H in QE. destruct (tvs (sm_t s) p) as [x|].
    { exfalso. cbn in QV. destruct (p_v _ W p ltac:(congruence)) as (_ & Q & _). congruence. }
    destruct (tes (sm_t s) p) as [x|]; cbn in QE; [|discriminate]. unfold eview in QE. inversion QE as [[Q Q']]. rewrite Q. auto.
  - apply (sd_f _ _ _ P) in H. destruct H as [y H]. rewrite H in QF. destruct (tvs (sm_t s) p) as [x|].
    { exfalso. cbn in QV. destruct (p_v _ W p ltac:(congruence)) as (_ & _ & Q & _). congruence. }
    destruct (tes (sm_t s) p) as [x|].
    { exfalso. cbn in QE. destruct (p_e _ W p ltac:(congruence)) as (_ & Q & _). congruence. }
    destruct (tfs (sm_t s) p) as [x|]; cbn in QF; [|discriminate]. unfold fview in QF. inversion QF as [[Q Q']]. rewrite Q. auto.
  - apply (sd_r _ _ _ P) in H. destruct H as [y H]. rewrite H in QR. destruct (tvs (sm_t s) p) as [x|].
    { exfalso. cbn in QV. destruct (p_v _ W p ltac:(congruence)) as (_ & _ & _ & Q). congruence. }
    destruct (tes (sm_t s) p) as [x|].
    { exfalso. cbn in QE. destruct (p_e _ W p ltac:(congruence)) as (_ & _ & Q). congruence. }
    destruct (tfs (sm_t s) p) as [x|].
    { exfalso. cbn in QF. destruct (p_f _ W p ltac:(congruence)) as (_ & Q). congruence. }
    destruct (trs (sm_t s) p) as [x|]; cbn in QR; [|discriminate]. unfold rview in QR. inversion QR as [[Q Q']]. rewrite Q. auto.
Qed.
Definition sdim (p : ptr) : Z := match ent_dim (sm_t s) p with Ok d => d | _ => 0 end.
Definition sent2 (p : ptr) : list Z := [sdim p; pi_gid (sm_p s p)].
Definition smsg (x : mset) : list msg := [MInts [ZL (ms_list x)]; MInts (flat_map sent2 (ms_list x))].
Lemma s_set_ok : forall x, In x (sm_sets s) -> s_set s x = Ok (smsg x).
Proof using P.
  intros x Hx. destruct (sd_set _ _ _ P eq_refl) as (G & _). rewrite Forall_forall in G. destruct (G x Hx) as [G1 G2 G3]. unfold s_set.
  assert (ZL (ms_list x) =? 0 = false) as -> by (unfold ZL; destruct (ms_list x); [congruence|cbn [length]; lia]). rewrite ck32_ok by (unfold ZL in *; lia). cbn [bind].
  rewrite (packM_ok _ _ _ sent2); [reflexivity|]. intros p Hp. destruct (G3 p Hp) as (d & Hd). unfold sent2, sdim. rewrite (ent_dim_ok d p Hd). auto.
Qed.
Lemma s_setmeta_ok : s_setmeta s = Ok (xmeta (sm_sets s) (map ms_ent (sm_sets s)) (map ms_name (sm_sets s))).
Proof using P. destruct (sd_set _ _ _ P eq_refl) as (_ & Sh & _). unfold s_setmeta. rewrite forallb_short by auto. auto. Qed.

(** ** Receiving attributes *)
Definition ameta (x : attr) : attr := mkAttr (at_name x) (at_type x) (at_ncomp x) (at_ent x) (fun _ => None).
Lemma no_name : forall dn x rest (full : list attr), full = dn ++ x :: rest -> NoDup (map at_name full) -> existsb (fun y => text_eqb (at_name y) (at_name x)) (map ameta dn) = false.
Proof using.
  intros dn x rest full -> N. destruct (existsb _ _) eqn:Q; auto. exfalso. apply existsb_exists in Q. destruct Q as (y & Hy & T). apply text_eqb_eq in T. apply in_map_iff in Hy. destruct Hy as (z & <- & Hz). cbn [ameta at_name] in T.
  rewrite map_app in N. cbn [map] in N. apply NoDup_remove_2 in N. apply N, in_or_app. left. rewrite <- T. apply in_map. auto.
Qed.
Lemma set_set_atts : forall s1 l l', set_atts (set_atts s1 l) l' = set_atts s1 l'.
Proof using. reflexivity. Qed.
Lemma rda_map : forall A B (f : A -> B) dn x rest, rda (map f (dn ++ x :: rest)) (Z.of_nat (length dn)) = Ok (f x).
Proof using. intros. rewrite map_app. cbn [map]. rewrite <- (map_length f dn). apply rda_app. Qed.
Lemma rda_mapE : forall A B (f : A -> B) l dn x rest, l = dn ++ x :: rest -> rda (map f l) (Z.of_nat (length dn)) = Ok (f x).
Proof using. intros A B f l dn x rest ->. apply rda_map. Qed.
Lemma r_attmeta_ok : forall s1 q, fm_atts (sm_m s1) = [] -> r_attmeta s1 (xmeta (sent_atts s) (map awl (sent_atts s)) (map at_name (sent_atts s)) ++ q) = Ok (set_atts s1 (map ameta (sent_atts s)), q).
Proof using P.
  intros s1 q E. destruct (sd_att _ _ _ P eq_refl) as (G & _ & ND). unfold r_attmeta, xmeta. set (L := sent_atts s) in *. cbn [app recv_ints length]. change (Z.of_nat 1 <=? 1) with true. cbv iota. cbn [bind].
  change (rda [Z.of_nat (length L)] 0) with (Ok (Z.of_nat (length L))). cbn [bind]. destruct (Z.eqb_spec (Z.of_nat (length L)) 0) as [Z0|Z0].
  - destruct L; [|cbn [length] in Z0; lia]. cbn [map app]. rewrite set_atts_nil by auto. auto.
  - assert (Z.of_nat (length L) <? 0 = false) as -> by lia. cbn [app recv_ints]. rewrite map_length, Z.leb_refl. cbn [bind recv_names]. rewrite map_length, Z.leb_refl. cbn [bind].
    edestruct (list_loop attr smesh (fun dn st => st = set_atts s1 (map ameta dn))) with (full := L) (st := s1) as (st & EL & Q).
    3: { rewrite EL. cbn [bind]. rewrite Q. reflexivity. }
    2: { cbn [map]. rewrite set_atts_nil; auto. }
    intros dn x rest st EL ->. rewrite Forall_forall in G. assert (Gx : good_satt s x) by (apply G; rewrite EL; apply in_or_app; right; left; auto).
    rewrite EL, rda_map. cbn [bind]. cbn [sm_m set_atts with_m fm_atts]. rewrite (no_name dn x rest L EL ND). rewrite rda_map. cbn [bind].
    pose proof (good_ent x Gx) as Ge. pose proof (good_n x Gx) as Gn. pose proof (tc_range (at_type x)) as Gt. pose proof (gs_ncomp _ _ Gx) as NC. pose proof (tc_range (at_type x)) as TR.
    assert (W1 : Z.land (awl x) 7 = type_code (at_type x)) by (unfold awl; replace (64 * at_ncomp x + (8 * at_ent x + type_code (at_type x))) with (8 * (8 * at_ncomp x + at_ent x) + type_code (at_type x)) by lia; apply low3; auto).
    assert (W2 : Z.shiftr (awl x) 3 = 8 * at_ncomp x + at_ent x) by (unfold awl; replace (64 * at_ncomp x + (8 * at_ent x + type_code (at_type x))) with (8 * (8 * at_ncomp x + at_ent x) + type_code (at_type x)) by lia; apply high3; auto).
    assert (W3 : Z.shiftr (awl x) 6 = at_ncomp x) by (change 6 with (3 + 3); rewrite <- Z.shiftr_shiftr by lia; rewrite W2; apply high3; auto).
    rewrite W1, W2, W3, low3 by auto. assert (code_type (type_code (at_type x)) = Ok (at_type x)) as -> by (destruct (at_type x); auto). cbn [bind]. cbv zeta.
    assert (Hv : (match at_type x with TVECTOR | TTENSOR => true | _ => false end) && (at_ncomp x =? 1) = false) by (destruct (at_type x); cbn [andb]; lia). rewrite Hv.
    eexists. split; [reflexivity|]. rewrite set_set_atts, map_app. cbn [map]. unfold ameta at 3. f_equal. f_equal. f_equal. destruct (at_type x); congruence.
Qed.
Variables (s1 : smesh) (a1 : amesh).
Hypothesis R1 : rcv s a K K (K 0) s1 a1.
Lemma kind1 : forall d, kind (sm_m s1) d = map (ph d) (K d).
Proof using R1. exact (c_kind _ _ _ _ _ _ (v_i _ _ _ _ _ _ _ R1)). Qed.
Lemma gid1 : forall d p, In p (K d) -> pi_gid (sm_p s1 (ph d p)) = pi_gid (sm_p s p).
Proof using R1. intros d p H. rewrite (c_p _ _ _ _ _ _ (v_i _ _ _ _ _ _ _ R1)) by auto. auto. Qed.
Lemma r_attvals_ok : forall d x l0 value vf, (forall dn p rest, K d = dn ++ p :: rest -> value (Z.of_nat (length dn)) = Ok (vf p)) ->
  exists vals, r_attvals (set_atts s1 l0) (ameta x) (map (ph d) (K d)) (gids d) value = Ok vals /\ (forall p, In p (K d) -> vals (ph d p) = vf p) /\ (forall q, (forall p, In p (K d) -> ph d p <> q) -> vals q = None).
Proof using P R1.
  intros d x l0 value vf HV. unfold r_attvals.
  edestruct (list_loop ptr (ptr -> option attval) (fun dn vals => (forall p, In p dn -> vals (ph d p) = vf p) /\ (forall q, (forall p, In p dn -> ph d p <> q) -> vals q = None))) with (full := K d) (st := fun _ : ptr => @None attval) as (vals & EL & Q).
  3: { exists vals. split; [|exact Q]. unfold ZL. rewrite map_length. exact EL. }
  2: { split; [intros p []|auto]. }
  intros dn p rest vals Ek [V1 V2]. change (lent (map (ph d) (K d)) (Z.of_nat (length dn))) with (lent (map (ph d) (K d)) (ZL dn)). rewrite (lent_dn s d dn p rest _ Ek eq_refl). cbn [bind]. unfold gids. rewrite (rda_mapE _ _ _ _ dn p rest Ek). cbn [bind]. pose proof (mid_in s d dn p rest Ek) as Kp.
  cbn [sm_p set_atts with_m]. rewrite gid1 by auto. rewrite Z.eqb_refl. cbn [negb]. rewrite (HV dn p rest Ek). cbn [bind]. pose proof (fresh_in s a true P d dn p rest Ek) as FR.
  assert (IK : forall p', In p' dn -> In p' (K d)) by (intros p' H; rewrite Ek; apply in_or_app; auto).
  assert (V0 : vals (ph d p) = None) by (apply V2; intros p' H Q; apply (ph_inj s) in Q; [destruct Q; subst; auto|auto|auto]).
  eexists. split; [reflexivity|]. split.
  - intros p' H. apply in_app_or in H. destruct H as [H|[<- | []]].
    + destruct (vf p); [rewrite zupd_other; auto|auto]. intro Q. apply (ph_inj s) in Q; [destruct Q; subst; auto|auto|auto].
    + destruct (vf p); [apply zupd_same|auto].
  - intros q0 H. assert (q0 <> ph d p) by (intro Q; apply (H p); [apply in_or_app; right; left; auto|auto]).
    assert (vals q0 = None) by (apply V2; intros p' H'; apply H, in_or_app; auto). destruct (vf p); [rewrite zupd_other; auto|auto].
Qed.
Lemma cut : forall A (l : list A) k, (k < length l)%nat -> exists dn x rest, l = dn ++ x :: rest /\ length dn = k.
Proof using. intros A l k H. destruct (nth_error l k) eqn:E; [|apply nth_error_None in E; lia]. apply nth_error_split in E. destruct E as (l1 & l2 & E & L). eauto. Qed.
Lemma r_attr_ok : forall x dn' rest' q, good_satt s x -> at_type x <> TPOINTER -> exists x', r_attr (set_atts s1 (dn' ++ ameta x :: rest'), amsgs x ++ q) (Z.of_nat (length dn')) = Ok (set_atts s1 (dn' ++ x' :: rest'), q) /\ att_sent s ph x x'.
Proof using P R1.
  intros x dn' rest' q G TP. unfold r_attr. cbn [sm_m set_atts with_m fm_atts]. rewrite rda_app. cbn [bind]. change (at_ent (ameta x)) with (at_ent x). change (at_ncomp (ameta x)) with (at_ncomp x). change (at_type (ameta x)) with (at_type x). unfold amsgs.
  destruct (gs_ent _ _ G) as [E|E].
  - rewrite E. change (att_ents (sm_m s) MALLTYPE) with (@None (list ptr)).
    match goal with |- context [att_ents ?m MALLTYPE] => change (att_ents m MALLTYPE) with (@None (list ptr)) end. exists (ameta x). split.
    + replace (match at_type x with TPOINTER => @nil msg | _ => [] end) with (@nil msg) by (destruct (at_type x); auto). reflexivity.
    + constructor; auto. intros p H. unfold MALLTYPE in E. lia.
  - rewrite !att_ents_kind by auto. match goal with |- context [kind ?m (at_ent x)] => change (kind m (at_ent x)) with (kind (sm_m s1) (at_ent x)) end. rewrite kind1.
    change (kind (sm_m s) (at_ent x)) with (K (at_ent x)). set (d := at_ent x) in *. pose proof (good_n x G) as N. pose proof (gs_size _ _ G E) as SZ. fold d in SZ. pose proof (gs_ncomp _ _ G) as NC.
    assert (ZM : ZL (map (ph d) (K d)) = ZL (K d)) by (unfold ZL; rewrite map_length; auto). rewrite ZM.
    assert (CK : ck32 (ZL (K d) * at_ncomp x) = Ok (ZL (K d) * at_ncomp x)) by (apply ck32_ok; assert (0 <= ZL (K d)) by (unfold ZL; lia); nia).
    assert (LG : Z.of_nat (length (gids d)) <=? ZL (K d) = true) by (unfold gids, ZL; rewrite map_length; lia).
    assert (DONE : forall value, (forall dn p rest, K d = dn ++ p :: rest -> value (Z.of_nat (length dn)) = Ok (stored (at_val x p))) ->
      exists vals, r_attvals (set_atts s1 (dn' ++ ameta x :: rest')) (ameta x) (map (ph d) (K d)) (gids d) value = Ok vals /\ att_sent s ph x (set_vals (ameta x) vals)).
    { intros value HV. destruct (r_attvals_ok d x (dn' ++ ameta x :: rest') value (fun p => stored (at_val x p)) HV) as (vals & EV & V1 & V2). exists vals. split; [exact EV|]. constructor; try reflexivity.
      - intros p _ Hp. cbn [set_vals at_val]. apply V1. auto.
      - intros q0 Hq. cbn [set_vals at_val]. apply V2. auto. }
    assert (END : forall vals, set_atts (set_atts s1 (dn' ++ ameta x :: rest')) (upd_nth (dn' ++ ameta x :: rest') (Z.to_nat (Z.of_nat (length dn'))) (set_vals (ameta x) vals)) = set_atts s1 (dn' ++ set_vals (ameta x) vals :: rest')).
    { intro vals. rewrite Nat2Z.id, upd_mid, set_set_atts. auto. }
    assert (VEC : at_type x = TVECTOR \/ at_type x = TTENSOR -> Z.of_nat (length (flat_map (vval x) (K d))) <=? ZL (K d) * at_ncomp x = true /\ exists vals,
      r_attvals (set_atts s1 (dn' ++ ameta x :: rest')) (ameta x) (map (ph d) (K d)) (gids d) (fun j => if 1 <? at_ncomp x then y <- mapM (fun k => rda (flat_map (vval x) (K d)) (j * at_ncomp x + k)) (zrange 0 (at_ncomp x)) ;; Ok (Some (AVec y)) else Ok None) = Ok vals /\
      att_sent s ph x (set_vals (ameta x) vals)).
    { intro TV. assert (VL : forall l p, (forall p, In p l -> In p (K d)) -> In p l -> length (vval x p) = Z.to_nat (at_ncomp x)) by (intros l p Hl Hp; destruct (vval_len x p G E (Hl p Hp) TV); lia). split.
      - rewrite (flat_length _ _ _ (Z.to_nat (at_ncomp x))) by (intros; eapply VL; eauto). unfold ZL. nia.
      - apply DONE. intros dn p rest Ek. pose proof (mid_in s d dn p rest Ek) as Kp. destruct (vval_len x p G E Kp TV) as [V1 V2]. assert (1 <? at_ncomp x = true) as -> by (destruct TV as [TV|TV]; rewrite TV in NC; lia).
        assert (EF : flat_map (vval x) (K d) = flat_map (vval x) dn ++ vval x p ++ flat_map (vval x) rest) by (rewrite Ek, flat_map_app; auto). rewrite EF. rewrite (mapM_rda _ (flat_map (vval x) dn) (vval x p) (flat_map (vval x) rest) (Z.of_nat (length dn) * at_ncomp x) (at_ncomp x)); [cbn [bind]; rewrite V1; reflexivity| |auto].
        rewrite (flat_length _ _ _ (Z.to_nat (at_ncomp x))); [nia|]. intros p' Hp'. apply (VL dn); auto. intros p2 H2. rewrite Ek. apply in_or_app. auto. }
    destruct (at_type x) eqn:Tx; try congruence; cbn [app recv_ints]; rewrite LG; cbn [bind]; rewrite CK; cbn [bind recv_ints recv_dbls].
    + rewrite map_length. assert (Z.of_nat (length (K d)) <=? ZL (K d) * at_ncomp x = true) as -> by (rewrite NC; unfold ZL; lia). cbn [bind].
      destruct (DONE (fun j => i <- rda (map (ival x) (K d)) j ;; Ok (if i =? 0 then None else Some (AInt i)))) as (vals & EV & AS).
      { intros dn p rest Ek. rewrite Ek at 1. rewrite rda_map. cbn [bind]. f_equal. pose proof (mid_in s d dn p rest Ek) as Kp. unfold ival. destruct (at_val x p) as [v|] eqn:Ev; auto.
        pose proof (gs_val _ _ G p v E Kp Ev) as HT. unfold has_type in HT. rewrite Tx in HT. destruct v; try contradiction. auto. }
      cbv beta in EV. rewrite EV. cbn [bind]. eexists. split; [|exact AS]. rewrite <- END. reflexivity.
    + rewrite map_length. assert (Z.of_nat (length (K d)) <=? ZL (K d) * at_ncomp x = true) as -> by (rewrite NC; unfold ZL; lia). cbn [bind].
      destruct (DONE (fun j => y <- rda (map (dval x) (K d)) j ;; Ok (if is_zero y then None else Some (ADbl y)))) as (vals & EV & AS).
      { intros dn p rest Ek. rewrite Ek at 1. rewrite rda_map. cbn [bind]. f_equal. pose proof (mid_in s d dn p rest Ek) as Kp. unfold dval. destruct (at_val x p) as [v|] eqn:Ev; auto.
        pose proof (gs_val _ _ G p v E Kp Ev) as HT. unfold has_type in HT. rewrite Tx in HT. destruct v as [|[]|]; try contradiction; auto. }
      cbv beta in EV. rewrite EV. cbn [bind]. eexists. split; [|exact AS]. rewrite <- END. reflexivity.
    + destruct VEC as (VL & vals & EV & AS); auto. rewrite VL. cbn [bind]. rewrite EV. cbn [bind]. eexists. split; [|exact AS]. rewrite <- END. reflexivity.
    + destruct VEC as (VL & vals & EV & AS); auto. rewrite VL. cbn [bind]. rewrite EV. cbn [bind]. eexists. split; [|exact AS]. rewrite <- END. reflexivity.
Qed.
Lemma good_sent : forall x, In x (sent_atts s) -> good_satt s x /\ at_type x <> TPOINTER.
Proof using P.
  intros x H. destruct (sd_att _ _ _ P eq_refl) as (G & _). rewrite Forall_forall in G. split; auto. unfold sent_atts in H. apply filter_In in H. destruct H as [_ H]. destruct (at_type x); congruence.
Qed.
Lemma atts_loop : forall q, exists l, foldM r_attr (set_atts s1 (map ameta (sent_atts s)), flat_map amsgs (sent_atts s) ++ q) (zrange 0 (Z.of_nat (length (map ameta (sent_atts s))))) = Ok (set_atts s1 l, q) /\ Forall2 (att_sent s ph) (sent_atts s) l.
Proof using P R1.
  intro q. rewrite map_length. set (L := sent_atts s).
  edestruct (list_loop attr (smesh * list msg) (fun dn st => exists rest l, L = dn ++ rest /\ st = (set_atts s1 (l ++ map ameta rest), flat_map amsgs rest ++ q) /\ Forall2 (att_sent s ph) dn l)) with (full := L) (step := r_attr) (st := (set_atts s1 (map ameta L), flat_map amsgs L ++ q)) as (st & EL & rest & l & ER & Est & F).
  - intros dn x rest st EL (rest' & l & ER & -> & F). assert (rest' = x :: rest) as -> by (apply (app_inv_head dn); congruence). cbn [map flat_map]. rewrite <- app_assoc.
    destruct (good_sent x) as [G T]; [change (In x L); rewrite EL; apply in_or_app; right; left; auto|].
    destruct (r_attr_ok x l (map ameta rest) (flat_map amsgs rest ++ q) G T) as (x' & E & AS). rewrite <- (F2_len _ _ _ _ _ F) in E. eexists. split; [exact E|].
    exists rest, (l ++ [x']). split; [rewrite <- app_assoc; auto|]. split; [rewrite <- app_assoc; auto|]. apply Forall2_app; auto.
  - exists L, []. auto.
  - rewrite EL, Est. exists l. assert (rest = []) as -> by (apply (app_inv_head L); rewrite app_nil_r; auto). cbn [map flat_map app]. rewrite app_nil_r. auto.
Qed.

(** ** Receiving sets *)
Definition xset (x : mset) : mset := mkSet (ms_name x) (ms_ent x) [].
Lemma r_setmeta_ok : forall l0 q, r_setmeta (set_atts s1 l0) (xmeta (sm_sets s) (map ms_ent (sm_sets s)) (map ms_name (sm_sets s)) ++ q) = Ok (set_sets (set_atts s1 l0) (map xset (sm_sets s)), q).
Proof using P R1.
  intros l0 q. destruct (sd_set _ _ _ P eq_refl) as (G & _ & ND). unfold r_setmeta, xmeta. set (L := sm_sets s) in *. cbn [app recv_ints length]. change (Z.of_nat 1 <=? 1) with true. cbv iota. cbn [bind].
  assert (N0 : sm_sets (set_atts s1 l0) = []) by exact (c_st _ _ _ _ _ _ (v_i _ _ _ _ _ _ _ R1)). set (s2 := set_atts s1 l0) in *.
  change (rda [Z.of_nat (length L)] 0) with (Ok (Z.of_nat (length L))). cbn [bind]. destruct (Z.eqb_spec (Z.of_nat (length L)) 0) as [Z0|Z0].
  - destruct L; [|cbn [length] in Z0; lia]. cbn [map app]. rewrite set_sets_nil by auto. auto.
  - assert (Z.of_nat (length L) <? 0 = false) as -> by lia. cbn [app recv_ints]. rewrite map_length, Z.leb_refl. cbn [bind recv_names]. rewrite map_length, Z.leb_refl. cbn [bind].
    edestruct (list_loop mset smesh (fun dn st => st = set_sets s2 (map xset dn))) with (full := L) (st := s2) as (st & EL & Q).
    3: { rewrite EL. cbn [bind]. rewrite Q. reflexivity. }
    2: { cbn [map]. rewrite set_sets_nil; auto. }
    intros dn x rest st EL ->. rewrite EL, rda_map. cbn [bind sm_sets set_sets].
    assert (existsb (fun y => text_eqb (ms_name y) (ms_name x)) (map xset dn) = false) as ->.
    { destruct (existsb _ _) eqn:Q; auto. exfalso. apply existsb_exists in Q. destruct Q as (y & Hy & T). apply text_eqb_eq in T. apply in_map_iff in Hy. destruct Hy as (z & <- & Hz). cbn [xset ms_name] in T.
      rewrite EL, map_app in ND. cbn [map] in ND. apply NoDup_remove_2 in ND. apply ND, in_or_app. left. rewrite <- T. apply in_map. auto. }
    rewrite rda_map. cbn [bind]. eexists. split; [reflexivity|]. rewrite map_app. reflexivity.
Qed.
Lemma by_gid_ok : forall l0 S0 d p, sm_sets s <> [] -> In p (K d) -> by_gid (set_sets (set_atts s1 l0) S0) (map (ph d) (K d)) (pi_gid (sm_p s p)) = Ok (ph d p).
Proof using P R1.
  intros l0 S0 d p NE Hp. unfold by_gid. cbn [sm_p set_sets set_atts with_m].
  rewrite (filter_one _ _ (map (ph d) (K d)) (ph d p)).
  - destruct (map (ph d) (K d)) eqn:Q; auto. apply map_eq_nil in Q. rewrite Q in Hp. destruct Hp.
  - pose proof (sd_nd _ _ _ P d) as ND. assert (IN : forall x, In x (K d) -> In x (K d)) by auto. revert ND IN. generalize (K d) at 1 2 4. induction l as [|x l IH]; intros ND IN; cbn [map]; constructor.
    + inversion ND; subst. intro Q. apply in_map_iff in Q. destruct Q as (y & Ey & Hy). apply (ph_inj s) in Ey; [|apply IN; right; auto|apply IN; left; auto]. destruct Ey; subst. auto.
    + apply IH; [inversion ND; auto|intros; apply IN; right; auto].
  - apply in_map. auto.
  - intros y Hy. apply in_map_iff in Hy. destruct Hy as (x & <- & Hx). rewrite gid1 by auto. split.
    + intro Q. apply Z.eqb_eq in Q. f_equal. eapply (sd_gid _ _ _ P); eauto.
    + intro Q. apply (ph_inj s) in Q; auto. destruct Q as [_ ->]. apply Z.eqb_refl.
Qed.
Lemma ph_pos : forall d p, In p (K d) -> ph d p =? NULL = false.
Proof using.
  intros d p H. pose proof (pos_range _ _ H). unfold phi. change (kind (m0 s) d) with (K d). assert (0 <= base (m0 s) d); [|unfold NULL; lia]. unfold base, ZL. destruct (0 <? d), (1 <? d), (2 <? d); lia.
Qed.
Lemma r_set_ok : forall l0 x dn' rest' q, In x (sm_sets s) -> exists x', r_set (set_sets (set_atts s1 l0) (dn' ++ xset x :: rest'), smsg x ++ q) (Z.of_nat (length dn')) = Ok (set_sets (set_atts s1 l0) (dn' ++ x' :: rest'), q) /\ set_sent s ph x x'.
Proof using P R1.
  intros l0 x dn' rest' q Hx. destruct (sd_set _ _ _ P eq_refl) as (G & _). rewrite Forall_forall in G. destruct (G x Hx) as [G1 G2 G3].
  unfold r_set. cbn [sm_sets set_sets]. rewrite rda_app. cbn [bind]. unfold smsg. cbn [app recv_ints length]. change (Z.of_nat 1 <=? 1) with true. cbv iota. cbn [bind]. change (rda [ZL (ms_list x)] 0) with (Ok (ZL (ms_list x))). cbn [bind].
  assert (ZL (ms_list x) =? 0 = false) as -> by (unfold ZL; destruct (ms_list x); [congruence|cbn [length]; lia]). rewrite ck32_ok by (unfold ZL in *; lia). cbn [bind recv_ints].
  rewrite (flat_length _ _ _ 2) by reflexivity. assert (Z.of_nat (2 * length (ms_list x)) <=? 2 * ZL (ms_list x) = true) as -> by (unfold ZL; lia). cbn [bind].
  set (s2 := set_sets (set_atts s1 l0) (dn' ++ xset x :: rest')).
  edestruct (list_loop ptr (list ptr) (fun dn st => Forall2 (fun p q => exists d, In p (K d) /\ q = ph d p) dn st)) with (full := ms_list x) (st := @nil ptr) as (st & EL & Q).
  3: { change (ms_list (xset x)) with (@nil ptr). change (zrange 0 (ZL (ms_list x))) with (zrange 0 (Z.of_nat (length (ms_list x)))). rewrite EL. cbn [bind]. exists (mkSet (ms_name x) (ms_ent x) st). split; [|split; [auto|split; [auto|exact Q]]].
       unfold s2. cbn [sm_sets set_sets]. rewrite Nat2Z.id, upd_mid. reflexivity. }
  2: constructor.
  intros dn p rest st Ex F. cbv beta. assert (Hp : In p (ms_list x)) by (rewrite Ex; apply in_or_app; right; left; auto). destruct (G3 p Hp) as (d & Hd). rewrite Ex, flat_map_app. cbn [flat_map].
  assert (L2 : 2 * Z.of_nat (length dn) = Z.of_nat (length (flat_map sent2 dn))) by (rewrite (flat_length _ _ _ 2) by reflexivity; lia).
  assert (Es : sent2 p = [d; pi_gid (sm_p s p)]) by (unfold sent2, sdim; rewrite (ent_dim_ok d p Hd); auto). rewrite Es.
  rewrite (rda_mid0 _ _ _ _ _ d L2) by auto. cbn [bind]. rewrite (rda_mid _ _ _ _ _ 1 (pi_gid (sm_p s p)) L2) by (auto; lia). cbn [bind].
  assert (D3 : 0 <= d <= 3) by (destruct (kind_cases _ _ _ Hd) as [-> | [-> | [-> | ->]]]; lia). rewrite att_ents_kind by auto. change (kind (sm_m s2) d) with (kind (sm_m s1) d). rewrite kind1. unfold s2. rewrite by_gid_ok by (auto; intro Q; rewrite Q in Hx; destruct Hx). cbn [bind]. rewrite ph_pos by auto.
  eexists. split; [reflexivity|]. apply Forall2_app; auto. constructor; eauto.
Qed.
Lemma sets_loop : forall l0 q, exists l, foldM r_set (set_sets (set_atts s1 l0) (map xset (sm_sets s)), flat_map smsg (sm_sets s) ++ q) (zrange 0 (Z.of_nat (length (map xset (sm_sets s))))) = Ok (set_sets (set_atts s1 l0) l, q) /\ Forall2 (set_sent s ph) (sm_sets s) l.
Proof using P R1.
  intros l0 q. rewrite map_length. set (L := sm_sets s).
  edestruct (list_loop mset (smesh * list msg) (fun dn st => exists rest l, L = dn ++ rest /\ st = (set_sets (set_atts s1 l0) (l ++ map xset rest), flat_map smsg rest ++ q) /\ Forall2 (set_sent s ph) dn l)) with (full := L) (step := r_set) (st := (set_sets (set_atts s1 l0) (map xset L), flat_map smsg L ++ q)) as (st & EL & rest & l & ER & Est & F).
  - intros dn x rest st EL (rest' & l & ER & -> & F). assert (rest' = x :: rest) as -> by (apply (app_inv_head dn); congruence). cbn [map flat_map]. rewrite <- app_assoc.
    destruct (r_set_ok l0 x l (map xset rest) (flat_map smsg rest ++ q)) as (x' & E & AS); [change (In x L); rewrite EL; apply in_or_app; right; left; auto|]. rewrite <- (F2_len _ _ _ _ _ F) in E. eexists. split; [exact E|].
    exists rest, (l ++ [x']). split; [rewrite <- app_assoc; auto|]. split; [rewrite <- app_assoc; auto|]. apply Forall2_app; auto.
  - exists L, []. auto.
  - rewrite EL, Est. exists l. assert (rest = []) as -> by (apply (app_inv_head L); rewrite app_nil_r; auto). cbn [map flat_map app]. rewrite app_nil_r. auto.
Qed.
End Atts.

(** ** All together *)
Lemma rda5 : forall A (b c d e f : A), rda [b; c; d; e; f] 0 = Ok b /\ rda [b; c; d; e; f] 1 = Ok c /\ rda [b; c; d; e; f] 2 = Ok d /\ rda [b; c; d; e; f] 3 = Ok e /\ rda [b; c; d; e; f] 4 = Ok f.
Proof. intros. auto 6. Qed.
Definition qmsgs (s : smesh) (a : amesh) (w : bool) : list msg :=
  s_meta s :: MInts (flat_map (auxl s true) (skind s 0)) :: MDbls (flat_map (xyz s) (skind s 0)) :: (MInts (flat_map (edgel s a) (skind s 1)) :: MInts (flat_map (facel s a) (skind s 2)) :: rmsg s a) ++
  (if w then xmeta (sent_atts s) (map awl (sent_atts s)) (map at_name (sent_atts s)) ++ flat_map (amsgs s) (sent_atts s) ++ xmeta (sm_sets s) (map ms_ent (sm_sets s)) (map ms_name (sm_sets s)) ++ flat_map (smsg s) (sm_sets s) else []).
Lemma send_ok : forall s a w, outgoing s a w -> MESH_SendMesh s w = Ok (qmsgs s a w).
Proof.
  intros s a w P. unfold MESH_SendMesh. rewrite (s_vertices_ok s a w P). cbn [bind]. rewrite (s_coords_ok s a w P). cbn [bind]. rewrite (s_nonvertex_ok s a w P). cbn [bind].
  destruct w; unfold qmsgs.
  + rewrite (s_attmeta_ok s a P). cbn [bind]. change (fm_atts (sm_m s)) with (satts s). rewrite (packM_ok _ _ _ (amsgs s)) by (apply (s_attr_ok s a P)). cbn [bind]. rewrite (s_setmeta_ok s a P). cbn [bind]. rewrite (packM_ok _ _ _ (smsg s)) by (apply (s_set_ok s a P)). cbn [bind]. rewrite sent_msgs. reflexivity.
  + reflexivity.
Qed.
Lemma send_recv : forall s a w, sendable s a w -> exists q, MESH_SendMesh s w = Ok q /\ forall rest, exists s' a', MESH_RecvMesh w (q ++ rest) = Ok (s', rest) /\ mesh_copy w s s' a a' (phi (m0 s)).
Proof.
  intros s a w [P PR].
  set (am := xmeta (sent_atts s) (map awl (sent_atts s)) (map at_name (sent_atts s))). set (sm := xmeta (sm_sets s) (map ms_ent (sm_sets s)) (map ms_name (sm_sets s))).
  set (tail := if w then am ++ flat_map (amsgs s) (sent_atts s) ++ sm ++ flat_map (smsg s) (sm_sets s) else []).
  exists (qmsgs s a w). split; [exact (send_ok s a w P)|].
  - unfold qmsgs. fold am sm tail. intro rest. unfold MESH_RecvMesh, s_meta. cbn [app recv_ints length]. change (Z.of_nat 5 <=? 5) with true. cbv iota. cbn [bind].
    match goal with |- context [rda [?b; ?c; ?d; ?e; ?f] 0] => destruct (rda5 _ b c d e f) as (A0 & A1 & A2 & A3 & A4) end. rewrite A0. cbn [bind]. rewrite A1. cbn [bind]. rewrite A2. cbn [bind]. rewrite A3. cbn [bind]. rewrite A4. cbn [bind]. clear A0 A1 A2 A3 A4. change (negb (0 =? 0)) with false. cbv iota.
    change (fm_v (sm_m s)) with (skind s 0). change (fm_e (sm_m s)) with (skind s 1). change (fm_f (sm_m s)) with (skind s 2). change (fm_r (sm_m s)) with (skind s 3).
    set (q3 := rmsg s a ++ tail ++ rest). rewrite <- (app_assoc (rmsg s a)). fold q3.
    edestruct (r_vertices_ok s a w P) as (C & D & s0 & a0 & E0 & R0 & ST & C1 & C0 & D0 & Dn). rewrite E0. cbn [bind].
    edestruct (r_coords_ok s a w P C D s0 a0) as (s0' & E1 & R1); [exact R0|exact C0|]. rewrite E1. cbn [bind].
    edestruct (r_nonvertex_ok s a w P C D s0' a0) as (s1 & a1 & E2 & R2); [exact PR|exact R1|exact ST|exact C1|exact C0|exact D0|exact Dn|]. unfold q3. rewrite E2. cbn [bind].
    pose proof (v_i _ _ _ _ _ _ _ R2) as RI. pose proof (v_t _ _ _ _ _ _ _ R2) as RT.
    assert (COPY : forall s', sm_t s' = sm_t s1 -> fm_c (sm_m s') = fm_c (sm_m s1) -> fm_x (sm_m s') = fm_x (sm_m s1) -> fm_id (sm_m s') = fm_id (sm_m s1) -> (forall d, kind (sm_m s') d = kind (sm_m s1) d) -> sm_p s' = sm_p s1 ->
      (if w then Forall2 (att_sent s (phi (m0 s))) (sent_atts s) (satts s') else satts s' = []) -> (if w then Forall2 (set_sent s (phi (m0 s))) (sm_sets s) (sm_sets s') else sm_sets s' = []) -> mesh_copy w s s' a a1 (phi (m0 s))).
    { intros s' H1 H2 H3 H4 H5 H6 H7 H8. constructor; auto; rewrite ?H1, ?H2, ?H3, ?H4, ?H6.
      - exact (u_reach _ _ _ _ _ _ RT).
      - intro d. unfold skind at 1. rewrite H5. apply (c_kind _ _ _ _ _ _ RI).
      - apply (ph_inj s).
      - intro q. unfold skind. rewrite H5, (c_kind _ _ _ _ _ _ RI). apply (u_v _ _ _ _ _ _ RT).
      - intro q. unfold skind. rewrite H5, (c_kind _ _ _ _ _ _ RI). apply (u_e _ _ _ _ _ _ RT).
      - intro q. unfold skind. rewrite H5, (c_kind _ _ _ _ _ _ RI). apply (u_f _ _ _ _ _ _ RT).
      - intro q. unfold skind. rewrite H5, (c_kind _ _ _ _ _ _ RI). apply (u_r _ _ _ _ _ _ RT).
      - intros e v0 v1 H. apply (u_ends _ _ _ _ _ _ RT); auto. apply (sd_e _ _ _ P). eexists; eauto.
      - intros f b H. apply (u_loop _ _ _ _ _ _ RT); auto. apply (sd_f _ _ _ P). eexists; eauto.
      - intros r b H. apply (u_faces _ _ _ _ _ _ RT); auto. apply (sd_r _ _ _ P). eexists; eauto.
      - exact (c_x _ _ _ _ _ _ RI).
      - exact (c_c _ _ _ _ _ _ RI).
      - intros d p H. rewrite (id_pos s a w P d p H). apply (c_id _ _ _ _ _ _ RI); auto.
      - intros d p H L. rewrite (c_p _ _ _ _ _ _ RI) by auto. unfold pout. assert (d <? 3 = true) as -> by lia. destruct (sm_p s p); auto.
      - intros p H. rewrite (c_p _ _ _ _ _ _ RI) by auto. reflexivity. }
    destruct w; cbn [negb].
    + unfold tail. rewrite <- !app_assoc. unfold am. rewrite (r_attmeta_ok s a P s1 _ (c_at _ _ _ _ _ _ RI)). cbn [bind].
      destruct (atts_loop s a P s1 a1 R2 (sm ++ flat_map (smsg s) (sm_sets s) ++ rest)) as (l & E3 & F3). cbn [sm_m set_atts with_m fm_atts]. 
      match goal with |- context [foldM r_attr ?x ?y] => change (foldM r_attr x y) with (foldM r_attr (set_atts s1 (map ameta (sent_atts s)), flat_map (amsgs s) (sent_atts s) ++ sm ++ flat_map (smsg s) (sm_sets s) ++ rest) (zrange 0 (Z.of_nat (length (map ameta (sent_atts s)))))) end.
      rewrite E3. cbn [bind]. unfold sm. rewrite (r_setmeta_ok s a P s1 a1 R2 l). cbn [bind].
      destruct (sets_loop s a P s1 a1 R2 l rest) as (l2 & E4 & F4). cbn [sm_sets set_sets].
      exists (set_sets (set_atts s1 l) l2), a1. split; [exact E4|]. apply COPY; auto.
    + exists s1, a1. split; [reflexivity|]. apply COPY; auto; [exact (c_at _ _ _ _ _ _ RI)|exact (c_st _ _ _ _ _ _ RI)].
Qed.
