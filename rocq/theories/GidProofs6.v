(** Elements, and the kinds one after the other. *)
From Coq Require Import ZArith List Lia Bool Arith ZifyBool ZifyNat Permutation Sorting.Sorted Floats.SpecFloat.
From Verif Require Import Base BaseProofs ListSpec SortModel CompareModel CompareProps MeshModel AttModel AttProps TopoModel TopoSpec TopoProofs TopoProofs2 TopoProps TopoProps2 ParModel ParProps CommModel CommProofs CommProofs2 ExchModel ExchProofs ExchProofs2 LabelModel LabelProofs GidModel GidProofs GidProofs2 GidProofs3 CoorProofs GidProofs4 GidProofs5.
Import ListNotations.
Open Scope Z_scope.

(** ** Elements *)
(** Elements have no copies and become PINTERIOR. *)
Definition no_twin (p e q e' : Z) : Prop := False.
Definition interior (s : gents) : gents := mkE (g_id s) (fun _ => PINTERIOR) (g_mas s) (g_bd s).
Definition blank (s : gents) (e : ptr) : bool := g_id s e =? 0.

Lemma number_elements_ok : forall rank g es l, NoDup l -> 0 <= g -> g + ZL l < 2 ^ 31 -> exists s, number_elements rank g es l = Ok s /\
  (forall e, In e l -> g_pt s e = PINTERIOR /\ g_mas s e = rank) /\
  (forall e, In e l -> g_id es e <> 0 -> g_id s e = g_id es e) /\
  (forall e a b, l = a ++ e :: b -> g_id es e = 0 -> g_id s e = g + ZL (filter (blank es) a)) /\
  (forall e, ~ In e l -> g_id s e = g_id es e /\ g_pt s e = g_pt es e /\ g_mas s e = g_mas es e) /\ g_bd s = g_bd es.
Proof.
  intros rank g es l ND Hg HL. unfold number_elements.
  destruct (foldM_list _ _ (fun pre (s : gents * Z) => snd s = g + ZL (filter (blank es) pre) /\ (forall e, In e pre -> g_pt (fst s) e = PINTERIOR /\ g_mas (fst s) e = rank) /\
    (forall e, In e pre -> g_id es e <> 0 -> g_id (fst s) e = g_id es e) /\ (forall e a b, pre = a ++ e :: b -> g_id es e = 0 -> g_id (fst s) e = g + ZL (filter (blank es) a)) /\
    (forall e, ~ In e pre -> g_id (fst s) e = g_id es e /\ g_pt (fst s) e = g_pt es e /\ g_mas (fst s) e = g_mas es e) /\ g_bd (fst s) = g_bd es)
    (fun (s : gents * Z) e => let es := set_pt (fst s) e PINTERIOR in '(es, g) <- (if g_id es e =? 0 then g' <- ck32 (snd s + 1) ;; Ok (set_gid es e (snd s), g') else Ok (es, snd s)) ;; Ok (set_mas es e rank, g)) l (es, g)) as ((s & g') & E & H).
  - cbn [fst snd filter]. split. unfold ZL; cbn; lia. split. intros e []. split. intros e []. split. intros e [|] b Q; discriminate. auto.
  - intros pre e suf (s & h) Ev (I1 & I2 & I3 & I4 & I5 & I6). cbn [fst snd] in *. assert (Ne : ~ In e pre) by (intro; rewrite Ev in ND; apply NoDup_remove_2 in ND; apply ND, in_or_app; auto).
    destruct (I5 e Ne) as (J1 & J2 & J3). cbn [set_pt g_id]. rewrite J1.
    assert (FL : ZL (filter (blank es) pre) + 1 <= ZL l) by (pose proof (flen_le _ (blank es) pre); rewrite Ev; unfold ZL; rewrite app_length; cbn [length]; lia).
    assert (NL : 0 <= ZL (filter (blank es) pre)) by (unfold ZL; lia).
    assert (FA : filter (blank es) (pre ++ [e]) = filter (blank es) pre ++ (if g_id es e =? 0 then [e] else [])) by (rewrite filter_app; cbn [filter]; unfold blank; auto).
    assert (LASTS : forall (a b : list ptr) y, pre ++ [e] = a ++ y :: b -> (b = [] /\ y = e /\ a = pre) \/ (exists b', pre = a ++ y :: b' /\ b = b' ++ [e])).
    { intros a b y Q. destruct b as [|z b] using rev_ind. apply app_inj_tail in Q. destruct Q; subst. auto. right. exists b. rewrite app_comm_cons, app_assoc in Q. apply app_inj_tail in Q. destruct Q; subst. auto. }
    assert (MAIN : forall s', (forall y, y <> e -> g_id s' y = g_id s y /\ g_pt s' y = g_pt s y /\ g_mas s' y = g_mas s y) -> g_bd s' = g_bd s -> g_pt s' e = PINTERIOR -> g_mas s' e = rank -> g_id s' e = (if g_id es e =? 0 then h else g_id es e) -> 
      (forall y, In y (pre ++ [e]) -> g_pt s' y = PINTERIOR /\ g_mas s' y = rank) /\
      (forall y, In y (pre ++ [e]) -> g_id es y <> 0 -> g_id s' y = g_id es y) /\ (forall y a b, pre ++ [e] = a ++ y :: b -> g_id es y = 0 -> g_id s' y = g + ZL (filter (blank es) a)) /\
      (forall y, ~ In y (pre ++ [e]) -> g_id s' y = g_id es y /\ g_pt s' y = g_pt es y /\ g_mas s' y = g_mas es y) /\ g_bd s' = g_bd es).
    { intros s' O1 O2 O3 O4 O5. split; [|split; [|split; [|split]]].
      - intros y Hy. apply in_app_iff in Hy. destruct (Z.eq_dec y e) as [Q|Q]. subst y; auto. destruct (O1 y Q) as (_ & -> & ->). apply I2. destruct Hy as [Hy|[Hy|[]]]; [auto|congruence].
      - intros y Hy NZ. apply in_app_iff in Hy. destruct (Z.eq_dec y e) as [Q|Q]. subst y. rewrite O5. replace (g_id es e =? 0) with false by lia. auto. destruct (O1 y Q) as (-> & _). apply I3; auto. destruct Hy as [Hy|[Hy|[]]]; [auto|congruence].
      - intros y a b Q Zr. destruct (LASTS a b y Q) as [(-> & -> & ->)|(b' & Q1 & Q2)]. rewrite O5. rewrite Zr. cbn [Z.eqb]. auto.
        assert (y <> e) by (intro; subst y; apply Ne; rewrite Q1; apply in_or_app; cbn; auto). destruct (O1 y H) as (-> & _). apply (I4 y a b'); auto.
      - intros y Hy. assert (y <> e) by (intro; subst y; apply Hy, in_or_app; cbn; auto). destruct (O1 y H) as (-> & -> & ->). apply I5. intro. apply Hy, in_or_app; auto.
      - congruence. }
    destruct (Z.eqb_spec (g_id es e) 0) as [Q|Q].
    + unfold ck32. rewrite I1. replace ((- 2 ^ 31 <=? _) && _) with true by lia. cbn [bind]. eexists. split; [reflexivity|]. cbn [fst snd]. split. rewrite FA. unfold ZL. rewrite app_length. cbn [length]. unfold ZL in *. lia. rewrite <- I1. apply MAIN.
      * intros y Hy. cbn [set_mas set_gid set_pt g_id g_pt g_mas]. rewrite !zupd_other by auto. auto.
      * auto.
      * cbn [set_mas set_gid set_pt g_id g_pt g_mas]. apply zupd_same.
      * cbn [set_mas set_gid set_pt g_id g_pt g_mas]. apply zupd_same.
      * cbn [set_mas set_gid set_pt g_id g_pt g_mas]. apply zupd_same.
    + cbn [bind]. eexists. split; [reflexivity|]. cbn [fst snd]. split. rewrite FA, app_nil_r. auto. apply MAIN.
      * intros y Hy. cbn [set_mas set_gid set_pt g_id g_pt g_mas]. rewrite !zupd_other by auto. auto.
      * auto.
      * cbn [set_mas set_gid set_pt g_id g_pt g_mas]. apply zupd_same.
      * cbn [set_mas set_gid set_pt g_id g_pt g_mas]. apply zupd_same.
      * cbn [set_mas set_gid set_pt g_id g_pt g_mas]. auto.
  - exists s. split. transitivity (bind (Ok (s, g')) (fun r => Ok (fst r))); [rewrite <- E|]; reflexivity. cbn [fst snd] in H. tauto.
Qed.

Definition below (all : Z -> list ptr) (p : Z) : Z := psum (fun q => ZL (all q)) (zrange 0 p).
Lemma below_total : forall n all p, on n p -> 0 <= below all p /\ below all p + ZL (all p) <= total n all.
Proof.
  intros n all p Hp. unfold on in Hp. unfold below, total. split. apply psum_nonneg. intros; unfold ZL; lia.
  replace (ranks n) with (zrange 0 n) by (unfold zrange, ranks; rewrite Z.sub_0_r; auto). rewrite (zrange_app 0 p n), psum_app, (zrange_cons p n) by lia. cbn [psum]. pose proof (psum_nonneg (fun q => ZL (all q)) (zrange (p + 1) n)) as P. cbv beta in P. assert (0 <= psum (fun q => ZL (all q)) (zrange (p + 1) n)) by (apply P; intros; unfold ZL; lia). lia.
Qed.
Lemma start_elem_ok : forall n all kn gi p, on n p -> total n all < 2 ^ 31 - 1 -> (forall j, on n j -> rdl gi (10 * j + kn) = Ok (ZL (all j))) -> start_elem kn p gi = Ok (1 + below all p).
Proof.
  intros n all kn gi p Hp HT HG. unfold start_elem. destruct (foldM_up _ (fun k g => g = 1 + below all k) (fun g i => x <- rdl gi (10 * i + kn) ;; ck32 (g + x)) 0 p 1) as (g & E & ->).
  - unfold on in Hp; lia.
  - unfold below. rewrite zrange_nil by lia. reflexivity.
  - intros k g Hk ->. assert (Hk' : on n k) by (unfold on in *; lia). rewrite HG by auto. cbn [bind]. destruct (below_total n all k Hk') as (B1 & B2). exists (1 + below all (k + 1)). split; auto. assert (EB : below all (k + 1) = below all k + ZL (all k)) by (unfold below; rewrite zrange_snoc, psum_app by lia; cbn [psum]; lia). unfold ck32. rewrite EB. assert (0 <= ZL (all k)) by (unfold ZL; lia). replace ((- 2 ^ 31 <=? _) && _) with true by lia. f_equal. lia.
  - auto.
Qed.
Lemma elements_stage : forall n all old kn gi, (forall p, on n p -> NoDup (all p)) -> total n all < 2 ^ 31 - 1 -> (forall j, on n j -> rdl gi (10 * j + kn) = Ok (ZL (all j))) ->
  exists y, (forall p, on n p -> start_elem kn p gi = Ok (1 + below all p) /\ number_elements p (1 + below all p) (old p) (all p) = Ok (y p)) /\
    numbering n all no_twin (fun p => interior (old p)) y /\ forall p, on n p -> g_bd (y p) = g_bd (old p).
Proof.
  intros n all old kn gi ND HT HG. exists (fun p => un (old p) (number_elements p (1 + below all p) (old p) (all p))).
  assert (EX : forall p, on n p -> exists s, number_elements p (1 + below all p) (old p) (all p) = Ok s /\ un (old p) (number_elements p (1 + below all p) (old p) (all p)) = s /\
    (forall e, In e (all p) -> g_pt s e = PINTERIOR /\ g_mas s e = p) /\ (forall e, In e (all p) -> g_id (old p) e <> 0 -> g_id s e = g_id (old p) e) /\
    (forall e a b, all p = a ++ e :: b -> g_id (old p) e = 0 -> g_id s e = 1 + below all p + ZL (filter (blank (old p)) a)) /\ g_bd s = g_bd (old p)).
  { intros p Hp. destruct (below_total n all p Hp) as (B1 & B2). destruct (number_elements_ok p (1 + below all p) (old p) (all p)) as (s & E & A1 & A2 & A3 & _ & A5); auto; try lia. exists s. rewrite E. cbn [un]. tauto. }
  assert (NG : forall p e, on n p -> In e (all p) -> g_pt (un (old p) (number_elements p (1 + below all p) (old p) (all p))) e <> PGHOST).
  { intros p e Hp He. destruct (EX p Hp) as (s & _ & -> & A & _). destruct (A e He) as (-> & _). discriminate. }
  assert (OW : forall p l, on n p -> incl l (all p) -> owned l (un (old p) (number_elements p (1 + below all p) (old p) (all p))) = l).
  { intros p l Hp I. unfold owned. apply filter_true. intros e He. specialize (NG p e Hp (I e He)). lia. }
  split; [|split].
  - intros p Hp. split. apply (start_elem_ok n); auto. destruct (EX p Hp) as (s & E & -> & _). auto.
  - assert (OB : forall p, on n p -> owned_below all (fun p => un (old p) (number_elements p (1 + below all p) (old p) (all p))) p = below all p).
    { intros p Hp. unfold owned_below, below. assert (G : forall l, (forall q, In q l -> on n q) -> psum (fun q => ZL (owned (all q) (un (old q) (number_elements q (1 + below all q) (old q) (all q))))) l = psum (fun q => ZL (all q)) l).
      { induction l as [|q l IH]; intros H; auto. cbn [psum]. rewrite IH by (intros; apply H; cbn; auto). rewrite OW. auto. apply H; cbn; auto. apply incl_refl. }
      apply G. intros q Hq. apply zrange_in in Hq. unfold on in *; lia. }
    constructor.
    + intros p e Hp He. split. intros G. destruct (NG p e Hp He G). intros (q & e' & _ & _ & []).
    + intros p e Hp He G. destruct (NG p e Hp He G).
    + intros p e Hp He _. destruct (EX p Hp) as (s & _ & -> & A & _). apply A; auto.
    + intros p e Hp He _ (q & e' & _ & _ & []).
    + intros p e Hp He _ _. destruct (EX p Hp) as (s & _ & -> & A & _). apply A; auto.
    + intros p e Hp He _ NZ. destruct (EX p Hp) as (s & _ & -> & _ & A & _). apply A; auto.
    + intros p e a b Hp Ea _ Zr. rewrite OB by auto. rewrite OW; auto. destruct (EX p Hp) as (s & _ & -> & _ & _ & A & _). apply (A e a b); auto. rewrite Ea. apply incl_appl, incl_refl.
    + intros p Hp. rewrite OB by auto. destruct (below_total n all p Hp) as (B1 & B2). lia.
  - intros p Hp. destruct (EX p Hp) as (s & _ & -> & _ & _ & _ & A). auto.
Qed.
