(** Deleting the interior: lemmas. *)
From Coq Require Import ZArith Bool List Lia Arith ZifyBool ZifyNat.
From Verif Require Import Base BaseProofs ListSpec AttModel TopoModel TopoSpec TopoProofs TopoProofs2 TopoProps ModProofs FileModel FileSpec SendModel SendSpec PartSpec PartProps InteriorModel InteriorSpec.
Import ListNotations.
Open Scope Z_scope.

Definition outer (inner : ptr -> bool) (p : ptr) : bool := negb (inner p).
Lemma delete_back_ok : forall del mk inner, (forall t x, del t x false = tstep t (mk x)) ->
  forall l t a, reach t a -> tallowed a (map mk (rev (filter inner l))) ->
  exists t', delete_back del inner t l = Ok (t', filter (outer inner) l) /\ reach t' (arun a (map mk (rev (filter inner l)))).
Proof.
  intros del mk inner D l t a R0 A0. unfold delete_back.
  assert (G : forall suf t a, reach t a -> tallowed a (map mk (rev (filter inner l))) -> exists t', foldM (fun st i => x <- lent (snd st) i ;; if inner x then t <- del (fst st) x false ;; Ok (t, rem_at i (snd st)) else Ok st) (t, l ++ suf) (rev (zrange 0 (ZL l))) = Ok (t', filter (outer inner) l ++ suf) /\ reach t' (arun a (map mk (rev (filter inner l))))).
  2: { destruct (G [] t a R0 A0) as (t' & E & R'). rewrite !app_nil_r in E. eauto. }
  clear t a R0 A0. induction l as [|x l IH] using rev_ind; intros suf t a R A; [exists t; split; [reflexivity|exact R]|].
  assert (ZR : rev (zrange 0 (ZL (l ++ [x]))) = Z.of_nat (length l) :: rev (zrange 0 (ZL l))).
  { unfold ZL. rewrite app_length. cbn [length]. unfold zrange. replace (Z.to_nat (Z.of_nat (length l + 1) - 0)) with (S (length l)) by lia. replace (Z.to_nat (Z.of_nat (length l) - 0)) with (length l) by lia. rewrite seq_S, map_app, rev_app_distr. reflexivity. }
  rewrite ZR. cbn [foldM fst snd]. rewrite <- !app_assoc. cbn [app]. unfold lent at 1. replace (Z.of_nat (length l) <? 0) with false by lia. cbn [bind]. rewrite Nat2Z.id. rewrite app_nth2 by lia. rewrite Nat.sub_diag. cbn [nth].
  assert (FL : filter inner (l ++ [x]) = filter inner l ++ (if inner x then [x] else [])) by (rewrite filter_app; cbn; destruct (inner x); auto). assert (FO : filter (outer inner) (l ++ [x]) = filter (outer inner) l ++ (if inner x then [] else [x])) by (rewrite filter_app; cbn; unfold outer at 2; destruct (inner x); auto).
  rewrite FL in *. rewrite FO. destruct (inner x).
  - rewrite rev_app_distr in *. cbn [rev app map] in *. cbn [tallowed arun] in *. destruct A as [A1 A2]. rewrite app_nil_r. destruct (reach_step _ _ _ R A1) as (t1 & E1 & R1). rewrite D, E1. cbn [bind]. assert (RM : rem_at (Z.of_nat (length l)) (l ++ x :: suf) = l ++ suf).
    { unfold rem_at. rewrite Nat2Z.id. rewrite firstn_app, firstn_all, Nat.sub_diag. cbn [firstn]. rewrite app_nil_r. f_equal. replace (S (length l)) with (length (l ++ [x])) by (rewrite app_length; cbn; lia). replace (l ++ x :: suf) with ((l ++ [x]) ++ suf) by (rewrite <- app_assoc; reflexivity). rewrite skipn_app, skipn_all, Nat.sub_diag. reflexivity. }
    rewrite RM. apply IH; auto.
  - rewrite app_nil_r in *. cbn [bind]. destruct (IH (x :: suf) t a R A) as (t' & E & R'). exists t'. rewrite <- app_assoc. auto.
Qed.

(** What the deletions do. *)
Lemma run_delR : forall l a, let a' := arun a (map (fun r => TDelR r false) l) in a_v a' = a_v a /\ a_e a' = a_e a /\ a_f a' = a_f a /\ forall p, a_r a' p = if inb p l then None else a_r a p.
Proof.
  induction l as [|x l IH]; intro a; cbn [map arun]; [cbn; auto|]. destruct (IH (astep a (TDelR x false))) as (A & B & C & D). cbv zeta. rewrite A, B, C. split; [reflexivity|]. split; [reflexivity|]. split; [reflexivity|]. intro p. rewrite D. cbn [astep with_r a_r inb existsb]. unfold kill, upd. fold (inb p l). destruct (inb p l); [rewrite orb_true_r; auto|]. rewrite orb_false_r. reflexivity.
Qed.
Lemma run_delF : forall l a, let a' := arun a (map (fun r => TDelF r false) l) in a_v a' = a_v a /\ a_e a' = a_e a /\ a_r a' = a_r a /\ forall p, a_f a' p = if inb p l then None else a_f a p.
Proof.
  induction l as [|x l IH]; intro a; cbn [map arun]; [cbn; auto|]. destruct (IH (astep a (TDelF x false))) as (A & B & C & D). cbv zeta. rewrite A, B, C. split; [reflexivity|]. split; [reflexivity|]. split; [reflexivity|]. intro p. rewrite D. cbn [astep with_f a_f inb existsb]. unfold kill, upd. fold (inb p l). destruct (inb p l); [rewrite orb_true_r; auto|]. rewrite orb_false_r. reflexivity.
Qed.
Lemma run_delE : forall l a, let a' := arun a (map (fun r => TDelE r false) l) in a_v a' = a_v a /\ a_f a' = a_f a /\ a_r a' = a_r a /\ forall p, a_e a' p = if inb p l then None else a_e a p.
Proof.
  induction l as [|x l IH]; intro a; cbn [map arun]; [cbn; auto|]. destruct (IH (astep a (TDelE x false))) as (A & B & C & D). cbv zeta. rewrite A, B, C. split; [reflexivity|]. split; [reflexivity|]. split; [reflexivity|]. intro p. rewrite D. cbn [astep with_e a_e inb existsb]. unfold kill, upd. fold (inb p l). destruct (inb p l); [rewrite orb_true_r; auto|]. rewrite orb_false_r. reflexivity.
Qed.
Lemma run_delV : forall l a, let a' := arun a (map (fun r => TDelV r false) l) in a_e a' = a_e a /\ a_f a' = a_f a /\ a_r a' = a_r a /\ forall p, a_v a' p = if inb p l then None else a_v a p.
Proof.
  induction l as [|x l IH]; intro a; cbn [map arun]; [cbn; auto|]. destruct (IH (astep a (TDelV x false))) as (A & B & C & D). cbv zeta. rewrite A, B, C. split; [reflexivity|]. split; [reflexivity|]. split; [reflexivity|]. intro p. rewrite D. cbn [astep with_v a_v inb existsb]. unfold upd. fold (inb p l). destruct (inb p l); [rewrite orb_true_r; auto|]. rewrite orb_false_r. reflexivity.
Qed.
(** When they are allowed. *)
Lemma may_delR : forall l a, NoDup l -> (forall x, In x l -> a_r a x <> None) -> tallowed a (map (fun r => TDelR r false) l).
Proof.
  induction l as [|x l IH]; intros a N H; cbn [map tallowed]; [exact Logic.I|]. inversion N. subst. split; [apply H; cbn; auto|]. apply IH; auto. intros y Hy. cbn [astep with_r a_r]. unfold kill, upd. destruct (Z.eqb_spec y x) as [->|]; [contradiction|]. apply H. cbn. auto.
Qed.
Lemma may_delF : forall l a, NoDup l -> (forall x, In x l -> a_f a x <> None) -> (forall x r d, In x l -> ~ has_face a r x d) -> tallowed a (map (fun r => TDelF r false) l).
Proof.
  induction l as [|x l IH]; intros a N H K; cbn [map tallowed]; [exact Logic.I|]. inversion N. subst. split; [split; [apply H; cbn; auto|intros _ r d; apply K; cbn; auto]|]. apply IH; auto.
  - intros y Hy. cbn [astep with_f a_f]. unfold kill, upd. destruct (Z.eqb_spec y x) as [->|]; [contradiction|]. apply H. cbn. auto.
  - intros y r d Hy. apply (K y r d). cbn. auto.
Qed.
Lemma may_delE : forall l a, NoDup l -> (forall x, In x l -> a_e a x <> None) -> (forall x f, In x l -> ~ has_edge a f x) -> tallowed a (map (fun r => TDelE r false) l).
Proof.
  induction l as [|x l IH]; intros a N H K; cbn [map tallowed]; [exact Logic.I|]. inversion N. subst. split; [split; [apply H; cbn; auto|intros _ r; apply K; cbn; auto]|]. apply IH; auto.
  - intros y Hy. cbn [astep with_e a_e]. unfold kill, upd. destruct (Z.eqb_spec y x) as [->|]; [contradiction|]. apply H. cbn. auto.
  - intros y r Hy. apply (K y r). cbn. auto.
Qed.
Lemma may_delV : forall l a, NoDup l -> (forall x, In x l -> a_v a x <> None) -> (forall x e, In x l -> ~ is_end a e x) -> tallowed a (map (fun r => TDelV r false) l).
Proof.
  induction l as [|x l IH]; intros a N H K; cbn [map tallowed]; [exact Logic.I|]. inversion N. subst. split; [split; [apply H; cbn; auto|intros _ r; apply K; cbn; auto]|]. apply IH; auto.
  - intros y Hy. cbn [astep with_v a_v]. unfold upd. destruct (Z.eqb_spec y x) as [->|]; [contradiction|]. apply H. cbn. auto.
  - intros y r Hy. apply (K y r). cbn. auto.
Qed.
Lemma filter_before : forall f l p q, before p q (filter f l) -> before p q l.
Proof.
  intros f l p q (l1 & l2 & l3 & E). assert (S : forall l k x m, filter f l = k ++ x :: m -> exists k' m', l = k' ++ x :: m' /\ filter f m' = m).
  { clear. induction l as [|y l IH]; intros k x m E; [destruct k; discriminate|]. cbn [filter] in E. destruct (f y).
    - destruct k as [|z k]; cbn [app] in E; inversion E; subst; [exists [], l; auto|]. destruct (IH _ _ _ H1) as (k' & m' & -> & H). exists (z :: k'), m'. auto.
    - destruct (IH _ _ _ E) as (k' & m' & -> & H). exists (y :: k'), m'. auto. }
  apply S in E. destruct E as (k & m & -> & E). apply S in E. destruct E as (k' & m' & -> & _). exists k, k', m'. auto.
Qed.
