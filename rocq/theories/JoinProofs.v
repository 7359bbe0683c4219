(** Lemmas for the joining of faces and of regions. *)
From Coq Require Import ZArith List Lia Bool Arith ZifyBool ZifyNat Permutation.
From Verif Require Import Base BaseProofs ListSpec AttModel AttProps TopoModel ParModel ParProps TopoSpec TopoProofs TopoProofs2 TopoProofs3 TopoProofs4 TopoProofs5 TopoProofs6 TopoProofs7 TopoProps TopoProps2 ModModel ModProofs ModProofs2 ModProps ModProps2 CellProofs2 JoinModel.
Import ListNotations.
Open Scope Z_scope.

(** ** The edges of the joined face *)
Lemma combine_zd : forall b : list (ptr * bool), combine (map fst b) (dirz b) = ModProofs2.zd b.
Proof. induction b as [|[e d] b IH]; cbn; auto. f_equal. exact IH. Qed.
Lemma last_at_ok : forall s e s', NoDup (s ++ e :: s') -> last_at e (s ++ e :: s') = length s.
Proof.
  intros s e s' N. unfold last_at. rewrite rev_app_distr. cbn [rev]. rewrite <- app_assoc. cbn [app]. rewrite index_of_app. 2: { apply NoDup_remove_2 in N. rewrite <- in_rev. intros H. apply N. apply in_or_app; auto. }
  rewrite rev_length, app_length. cbn [length]. lia.
Qed.
Lemma zd_app : forall b b', ModProofs2.zd (b ++ b') = ModProofs2.zd b ++ ModProofs2.zd b'.
Proof. intros. apply map_app. Qed.
Lemma after_ok : forall s e d s', NoDup (map fst (s ++ (e, d) :: s')) ->
  after_edge (combine (map fst (s ++ (e, d) :: s')) (dirz (s ++ (e, d) :: s'))) (last_at e (map fst (s ++ (e, d) :: s'))) = ModProofs2.zd (s' ++ s).
Proof.
  intros s e d s' N. rewrite combine_zd. rewrite map_app in *. cbn [map fst] in *. rewrite last_at_ok by auto. rewrite map_length. unfold after_edge. rewrite !zd_app. cbn [ModProofs2.zd map fst snd].
  change (ModProofs2.zd s ++ (e, b2z d) :: map (fun x : ptr * bool => (fst x, b2z (snd x))) s') with (ModProofs2.zd s ++ (e, b2z d) :: ModProofs2.zd s').
  f_equal.
  - replace (S (length s)) with (length (ModProofs2.zd s ++ [(e, b2z d)])) by (rewrite app_length, zd_len; cbn; lia). replace (ModProofs2.zd s ++ (e, b2z d) :: ModProofs2.zd s') with ((ModProofs2.zd s ++ [(e, b2z d)]) ++ ModProofs2.zd s') by (rewrite <- app_assoc; auto).
    rewrite skipn_app, skipn_all, Nat.sub_diag. auto.
  - rewrite <- (zd_len s) at 1. rewrite firstn_app, Nat.sub_diag, firstn_all. cbn [firstn]. apply app_nil_r.
Qed.
Lemma zd_maps : forall b, map fst (ModProofs2.zd b) = map fst b /\ map snd (ModProofs2.zd b) = dirz b.
Proof. intros. unfold ModProofs2.zd, dirz. rewrite !map_map. auto. Qed.

(** ** Two loops with a common edge *)
Lemma join_path : forall a s0 s0' s1 s1' e d u0 u1, path a u0 (s0 ++ (e, d) :: s0') u0 -> path a u1 (s1 ++ (e, negb d) :: s1') u1 ->
  exists x y, path a y (s0' ++ s0) x /\ path a x (s1' ++ s1) y /\ x <> y /\ vat a (e, d) = x /\ vat a (e, negb d) = y.
Proof.
  intros a s0 s0' s1 s1' e d u0 u1 P0 P1. apply path_app in P0. destruct P0 as (x & P0 & Q0). apply path_app in P1. destruct P1 as (y & P1 & Q1). cbn [path] in Q0, Q1. destruct Q0 as ([p q] & He & Hn & Hx & Q0). destruct Q1 as ([p' q'] & He' & Hn' & Hy & Q1).
  rewrite He in He'. injection He' as <- <-. exists x, y. destruct d; cbn [negb fst snd] in *; subst x y; split; try (apply path_app; eauto); (split; [apply path_app; eauto|]); split; auto; unfold vat; cbn [fst snd]; rewrite He; auto.
Qed.

(** ** Faces of a region *)
Lemma side_unique : forall t a f r q d, inv t a -> has_face a r f d -> has_face a q f d -> r = q.
Proof.
  intros t a f r q d I Hr Hq. assert (Hf : a_f a f <> None). { destruct Hr as (b & Hb & Hi). pose proof (w_rf _ (i_w _ _ I) _ _ Hb) as F. rewrite Forall_forall in F. destruct (F _ Hi) as (x & Hx). cbn [fst] in Hx. congruence. }
  assert (NN : forall r d, has_face a r f d -> r <> NULL) by (intros r' d' (b & Hb & _); apply (r_nonnull _ _ _ I); congruence).
  destruct (get_f t a f I Hf) as (x & Hx & _). pose proof (i_uf _ _ I _ _ Hx) as U. destruct (U r (NN _ _ Hr)) as [U1 U2]. destruct (U q (NN _ _ Hq)) as [V1 V2]. destruct d. apply U1 in Hr. apply V1 in Hq. congruence. apply U2 in Hr. apply V2 in Hq. congruence.
Qed.

Lemma other_go : forall t r f c2 d c2' b, b = c2 ++ (f, d) :: c2' -> NoDup (map fst b) -> (forall i, (i < length b)%nat -> MR_FaceDir_i t r (Z.of_nat i) = Ok (b2z (snd (nth i b dflt)))) ->
  other_faces t r f (map fst b) = Ok (ModProofs2.zd (c2 ++ c2')).
Proof.
  intros t r f c2 d c2' b Eb N HD.
  assert (FR : filter (fun x : ptr * bool => negb (fst x =? f)) b = c2 ++ c2').
  { subst b. rewrite map_app in N. cbn [map fst] in N. apply NoDup_remove_2 in N. rewrite filter_app. cbn [filter fst]. rewrite Z.eqb_refl. cbn [negb]. assert (K : forall l : list (ptr * bool), ~ In f (map fst l) -> filter (fun x => negb (fst x =? f)) l = l). { induction l as [|[g e] l IH]; intros H; cbn in *; auto. replace (g =? f) with false by lia. cbn [negb]. f_equal. apply IH. tauto. }
    rewrite in_app_iff in N. rewrite !K by tauto. auto. }
  assert (G : forall k, (k <= length b)%nat -> foldM (fun acc i => g <- lent (map fst b) i ;; if g =? f then Ok acc else d <- MR_FaceDir_i t r i ;; Ok (acc ++ [(g, d)])) [] (zrange 0 (Z.of_nat k)) = Ok (ModProofs2.zd (filter (fun x => negb (fst x =? f)) (firstn k b)))).
  { induction k as [|k IH]; intros Hk. cbn. rewrite zrange_nil by lia. auto. replace (Z.of_nat (S k)) with (Z.of_nat k + 1) by lia. rewrite zrange_snoc by lia. rewrite foldM_app, IH by lia. cbn [bind foldM]. rewrite lent_fst by lia. cbn [bind].
    assert (EF : firstn (S k) b = firstn k b ++ [nth k b dflt]). { clear -Hk. revert k Hk. induction b as [|x b IH]; intros k Hk; cbn in Hk. lia. destruct k. auto. cbn [firstn nth app]. f_equal. apply IH. lia. }
    rewrite EF, filter_app. cbn [filter]. destruct (fst (nth k b dflt) =? f) eqn:Eg; cbn [negb]. rewrite app_nil_r. auto. rewrite HD by lia. cbn [bind]. rewrite zd_app. auto. }
  specialize (G (length b) ltac:(lia)). rewrite firstn_all, FR in G. unfold other_faces. unfold ZL. rewrite map_length. exact G.
Qed.
