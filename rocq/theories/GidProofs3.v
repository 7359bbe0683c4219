(** What follows from a numbering, and the first steps of each kind of entity. *)
From Coq Require Import ZArith List Lia Bool Arith ZifyBool ZifyNat Permutation Sorting.Sorted.
From Verif Require Import Base BaseProofs ListSpec SortModel CompareModel CompareProps MeshModel AttModel AttProps TopoModel TopoProofs TopoProofs2 TopoProps TopoProps2 ParModel ParProps CommModel CommProofs CommProofs2 ExchModel ExchProofs ExchProofs2 LabelModel GidModel GidProofs GidProofs2.
Import ListNotations.
Open Scope Z_scope.

Lemma numbering_ext : forall n all tw tw' old new, numbering n all tw old new ->
  (forall p e q e', on n p -> on n q -> p <> q -> In e (all p) -> In e' (all q) -> tw p e q e' <-> tw' p e q e') -> numbering n all tw' old new.
Proof.
  intros n all tw tw' old new H E. assert (E' : forall p e q e', on n p -> 0 <= q < n -> p <> q -> In e (all p) -> In e' (all q) -> tw p e q e' <-> tw' p e q e') by (intros; apply E; auto).
  constructor.
  - intros p e Hp He. rewrite (num_ghost _ _ _ _ _ H p e Hp He). unfold on in Hp. split; intros (q & e' & A1 & A2 & A3); exists q, e'; (split; [auto|split; [auto|apply E'; auto; lia]]).
  - intros p e Hp He G. destruct (num_owner _ _ _ _ _ H p e Hp He G) as (q & e' & A1 & A2 & A3 & A4 & A5). assert (Hp' := Hp). unfold on in Hp'. exists q, e'. split; auto. split; auto. split. apply E'; auto; lia. split; auto. intros q' e'' B1 B2 B3. apply (A4 q' e'' B1 B2). apply E'; auto; lia.
  - apply (num_owned _ _ _ _ _ H).
  - intros p e Hp He G (q & e' & A1 & A2 & A3). assert (Hp' := Hp). unfold on in Hp'. apply (num_overlap _ _ _ _ _ H); auto. exists q, e'. split; auto. split; auto. apply E'; auto; lia.
  - intros p e Hp He G A. assert (Hp' := Hp). unfold on in Hp'. apply (num_inner _ _ _ _ _ H); auto. intros q e' B1 B2 B3. apply (A q e' B1 B2). apply E'; auto; lia.
  - apply (num_kept _ _ _ _ _ H).
  - apply (num_fresh _ _ _ _ _ H).
  - apply (num_range _ _ _ _ _ H).
Qed.

(** The IDs of the owned entities of a rank are a block. *)
Definition blocks (n : Z) (all : Z -> list ptr) (new : Z -> gents) : Prop :=
  forall p, on n p -> map (g_id (new p)) (owned (all p) (new p)) = zrange (1 + owned_below all new p) (1 + owned_below all new p + ZL (owned (all p) (new p))).
(** Two entities have the same ID exactly if they are the same or copies of the same. *)
Definition same_ids (n : Z) (all : Z -> list ptr) (twin : Z -> ptr -> Z -> ptr -> Prop) (new : Z -> gents) : Prop :=
  forall p e q e', on n p -> on n q -> In e (all p) -> In e' (all q) -> g_id (new p) e = g_id (new q) e' <-> (p = q /\ e = e') \/ (p <> q /\ twin p e q e').
Definition fresh (n : Z) (all : Z -> list ptr) (old : Z -> gents) : Prop := forall p e, on n p -> In e (all p) -> g_id (old p) e = 0.

Lemma filter_true : forall (l : list ptr) f, (forall x, In x l -> f x = true) -> filter f l = l.
Proof. induction l as [|x l IH]; intros f H; cbn [filter]; auto. rewrite (H x) by (cbn; auto). f_equal. apply IH. intros; apply H; cbn; auto. Qed.
Lemma owned_in : forall l s e, In e (owned l s) <-> In e l /\ g_pt s e <> PGHOST.
Proof. intros. unfold owned. rewrite filter_In. split; intros (A & B); split; auto; lia. Qed.

Section Num.
  Variables (n : Z) (all : Z -> list ptr) (tw : Z -> ptr -> Z -> ptr -> Prop) (old new : Z -> gents).
  Hypothesis HN : numbering n all tw old new.
  Hypothesis HF : fresh n all old.
  Hypothesis ND : forall p, on n p -> NoDup (all p).

  Lemma pos_of : forall p e a b, on n p -> all p = a ++ e :: b -> g_pt (new p) e <> PGHOST -> g_id (new p) e = 1 + owned_below all new p + ZL (owned a (new p)).
  Proof.
    intros p e a b Hp E G. assert (He : In e (all p)) by (rewrite E; apply in_or_app; cbn; auto). rewrite (num_fresh _ _ _ _ _ HN p e a b Hp E G (HF p e Hp He)). do 2 f_equal. apply filter_true. intros y Hy. apply owned_in in Hy. rewrite (HF p y Hp). auto. rewrite E. apply in_or_app. tauto.
  Qed.
  Lemma num_blocks : blocks n all new.
  Proof.
    intros p Hp. assert (G : forall a b, all p = a ++ b -> map (g_id (new p)) (owned a (new p)) = zrange (1 + owned_below all new p) (1 + owned_below all new p + ZL (owned a (new p)))).
    { induction a as [|x a IH] using rev_ind; intros b E. cbn. rewrite zrange_nil by (unfold ZL; cbn; lia). auto.
      rewrite <- app_assoc in E. cbn [app] in E. specialize (IH (x :: b) E). unfold owned in *. rewrite filter_app. cbn [filter]. destruct (Z.eqb_spec (g_pt (new p) x) PGHOST) as [Q|Q]; cbn [negb].
      rewrite app_nil_r. auto. rewrite map_app, IH. cbn [map]. rewrite (pos_of p x a b Hp E Q). unfold owned, ZL. rewrite app_length. cbn [length]. rewrite Nat2Z.inj_add. change (Z.of_nat 1) with 1. rewrite Z.add_assoc, zrange_snoc by lia. auto. }
    apply (G (all p) []). rewrite app_nil_r. auto.
  Qed.
  Lemma owned_mono : forall q p, 0 <= q < p -> owned_below all new q + ZL (owned (all q) (new q)) <= owned_below all new p.
  Proof.
    intros q p H. unfold owned_below. rewrite (zrange_app 0 q p), psum_app by lia. rewrite (zrange_cons q p) by lia. cbn [psum]. pose proof (psum_nonneg (fun q0 => ZL (owned (all q0) (new q0))) (zrange (q + 1) p)) as P. cbv beta in P. assert (0 <= psum (fun q0 => ZL (owned (all q0) (new q0))) (zrange (q + 1) p)) by (apply P; intros; unfold ZL; lia). lia.
  Qed.
  (** Owned entities are told apart by their IDs. *)
  Lemma owned_inj : forall p e q e', on n p -> on n q -> In e (all p) -> In e' (all q) -> g_pt (new p) e <> PGHOST -> g_pt (new q) e' <> PGHOST -> g_id (new p) e = g_id (new q) e' -> p = q /\ e = e'.
  Proof.
    intros p e q e' Hp Hq He He' G G' E. destruct (in_split _ _ He) as (a & b & Ea). destruct (in_split _ _ He') as (a' & b' & Ea'). rewrite (pos_of p e a b Hp Ea G), (pos_of q e' a' b' Hq Ea' G') in E.
    assert (Lt : forall p e a b, on n p -> all p = a ++ e :: b -> g_pt (new p) e <> PGHOST -> ZL (owned a (new p)) < ZL (owned (all p) (new p))).
    { intros p0 e0 a0 b0 _ E0 G0. rewrite E0. unfold owned, ZL. rewrite filter_app, app_length. cbn [filter]. replace (g_pt (new p0) e0 =? PGHOST) with false by lia. cbn [negb length]. lia. }
    pose proof (Lt p e a b Hp Ea G) as L. pose proof (Lt q e' a' b' Hq Ea' G') as L'. unfold on in *. 
    destruct (Z.lt_trichotomy p q) as [X|[X|X]].
    - pose proof (owned_mono p q ltac:(lia)). unfold ZL in *; lia.
    - subst q. split; auto. assert (EQ : length (owned a (new p)) = length (owned a' (new p))) by (unfold ZL in E; lia). rewrite Ea in Ea'. clear - Ea' EQ G G'. revert a' Ea' EQ. induction a as [|x a IH]; intros a' Ea' EQ.
      + destruct a' as [|y a']; cbn in Ea'; inversion Ea'; auto. subst y. unfold owned in EQ. cbn [filter length] in EQ. replace (g_pt (new p) e =? PGHOST) with false in EQ by lia. cbn in EQ. discriminate.
      + destruct a' as [|y a']; cbn in Ea'; inversion Ea'; subst. unfold owned in EQ. cbn [filter length] in EQ. replace (g_pt (new p) e' =? PGHOST) with false in EQ by lia. cbn in EQ. discriminate.
        apply (IH a'); auto. unfold owned in *. cbn [filter] in EQ. destruct (negb (g_pt (new p) y =? PGHOST)); cbn [length] in EQ; lia.
    - pose proof (owned_mono q p ltac:(lia)). unfold ZL in *; lia.
  Qed.

  Hypothesis Sym : forall p e q e', on n p -> on n q -> tw p e q e' -> tw q e' p e.
  Hypothesis Tr : forall p e q e' r e'', on n p -> on n q -> on n r -> tw p e q e' -> tw q e' r e'' -> tw p e r e''.
  Hypothesis One : forall p e e', on n p -> tw p e p e' -> e = e'.
  Lemma num_same : same_ids n all tw new.
  Proof.
    assert (REP : forall p e, on n p -> In e (all p) -> exists o eo, on n o /\ In eo (all o) /\ g_pt (new o) eo <> PGHOST /\ g_id (new p) e = g_id (new o) eo /\ ((o = p /\ eo = e) \/ (0 <= o < p /\ tw p e o eo /\ forall q' e'', 0 <= q' < o -> In e'' (all q') -> ~ tw p e q' e''))).
    { intros p e Hp He. destruct (Z.eq_dec (g_pt (new p) e) PGHOST) as [G|G].
      - destruct (num_owner _ _ _ _ _ HN p e Hp He G) as (o & eo & A1 & A2 & A3 & A4 & A5 & A6 & A7). exists o, eo. split. unfold on in *; lia. split; auto. split; auto.
      - exists p, e. split; auto. split; auto. }
    assert (TW : forall p e q e', on n p -> on n q -> In e (all p) -> In e' (all q) -> p < q -> tw p e q e' -> g_id (new p) e = g_id (new q) e').
    { intros p e q e' Hp Hq He He' L T. destruct (REP p e Hp He) as (o & eo & A1 & A2 & A3 & A4 & A5). destruct (REP q e' Hq He') as (o' & eo' & B1 & B2 & B3 & B4 & B5).
      assert (GQ : g_pt (new q) e' = PGHOST). { apply (num_ghost _ _ _ _ _ HN q e' Hq He'). exists p, e. unfold on in *. split; [lia|]. split; auto. }
      destruct B5 as [(-> & ->)|(B5 & B6 & B7)]. contradiction.
      assert (TE : tw p e o' eo') by (apply (Tr p e q e' o' eo'); auto).
      destruct A5 as [(-> & ->)|(A5 & A6 & A7)].
      - destruct (Z.lt_trichotomy o' p) as [X|[X|X]].
        + exfalso. apply A3. apply (num_ghost _ _ _ _ _ HN p e Hp He). exists o', eo'. unfold on in *. split; [lia|]. auto.
        + subst o'. rewrite B4. f_equal. apply (One p); auto.
        + exfalso. apply (B7 p e); auto. unfold on in *; lia.
      - destruct (Z.lt_trichotomy o o') as [X|[X|X]].
        + exfalso. apply (B7 o eo); auto. lia. apply (Tr q e' p e o eo); auto.
        + subst o'. rewrite A4, B4. f_equal. apply (One o); auto. apply (Tr o eo p e o eo'); auto.
        + exfalso. apply (A7 o' eo'); auto. unfold on in *; lia. }
    intros p e q e' Hp Hq He He'. split.
    - intros E. destruct (REP p e Hp He) as (o & eo & A1 & A2 & A3 & A4 & A5). destruct (REP q e' Hq He') as (o' & eo' & B1 & B2 & B3 & B4 & B5).
      destruct (owned_inj o eo o' eo') as (Eo & Ee); auto; try congruence. subst o' eo'.
      destruct A5 as [(Ea & Eb)|(A5 & A6 & _)]; destruct B5 as [(Ec & Ed)|(B5 & B6 & _)].
      + left. subst. auto.
      + right. subst. split. lia. auto.
      + right. subst. split. lia. auto.
      + assert (T : tw p e q e') by (apply (Tr p e o eo q e'); auto). destruct (Z.eq_dec p q) as [X|X]. subst q. left. split; auto. apply (One p); auto. right. auto.
    - intros [(-> & ->)|(NE & T)]; auto. destruct (Z.lt_trichotomy p q) as [X|[X|X]]; [auto|contradiction|]. symmetry. apply TW; auto.
  Qed.
  (** Range of the IDs. *)
  Lemma num_pos : forall p e, on n p -> In e (all p) -> 0 < g_id (new p) e < 2 ^ 31.
  Proof.
    assert (OW : forall p e, on n p -> In e (all p) -> g_pt (new p) e <> PGHOST -> 0 < g_id (new p) e < 2 ^ 31).
    { intros p e Hp He G. destruct (in_split _ _ He) as (a & b & E). rewrite (pos_of p e a b Hp E G). pose proof (num_range _ _ _ _ _ HN p Hp) as R. assert (0 <= owned_below all new p) by (apply psum_nonneg; intros; unfold ZL; lia). rewrite E in R. unfold ZL in *. rewrite app_length in R. cbn [length] in R. pose proof (flen_le _ (fun e => negb (g_pt (new p) e =? PGHOST)) a). unfold owned. lia. }
    intros p e Hp He. destruct (Z.eq_dec (g_pt (new p) e) PGHOST) as [G|G]; auto. destruct (num_owner _ _ _ _ _ HN p e Hp He G) as (o & eo & A1 & A2 & A3 & A4 & A5 & A6 & A7). rewrite A7. apply OW; auto. unfold on in *; lia.
  Qed.
End Num.
