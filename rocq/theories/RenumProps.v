(** C30: renumbering the global IDs keeps owners and ghosts together. *)
From Coq Require Import ZArith List Lia Bool Arith ZifyBool ZifyNat Permutation Sorting.Sorted.
From Verif Require Import Base BaseProofs ListSpec SortModel CompareModel CompareProps MeshModel AttModel AttProps TopoModel TopoSpec TopoProofs TopoProofs2 ParModel ParProps CommModel CommProofs CommProofs2 ExchModel ExchProofs ExchProofs2 ExchProofs4 ExchProps LabelModel GidModel GidProofs GidProofs2 GidProofs3 GidProofs6 RenumProofs.
Import ListNotations.
Open Scope Z_scope.

(** ** Numbering in order *)
Lemma own_app : forall pt a b, own pt (a ++ b) = own pt a ++ own pt b.
Proof. intros. unfold own. apply filter_app. Qed.
Lemma own_cons : forall pt e b, pt e <> PGHOST -> own pt (e :: b) = e :: own pt b.
Proof. intros. unfold own. cbn [filter]. destruct (Z.eqb_spec (pt e) PGHOST); [congruence|auto]. Qed.
Lemma own_pos : forall pt l e a b e' a' b', l = a ++ e :: b -> l = a' ++ e' :: b' -> pt e <> PGHOST -> pt e' <> PGHOST -> ZL (own pt a) = ZL (own pt a') -> e = e'.
Proof.
  intros pt l e a b e' a' b' E E' G G' L. assert (A : nth (length (own pt a)) (own pt l) 0 = e) by (rewrite E, own_app, own_cons, nth_middle; auto). assert (A' : nth (length (own pt a')) (own pt l) 0 = e') by (rewrite E', own_app, own_cons, nth_middle; auto).
  unfold ZL in L. replace (length (own pt a')) with (length (own pt a)) in A' by lia. congruence.
Qed.
Lemma own_lt : forall pt l e a b, l = a ++ e :: b -> pt e <> PGHOST -> 0 <= ZL (own pt a) < ZL (own pt l).
Proof. intros pt l e a b E G. rewrite E, own_app, own_cons by auto. unfold ZL. rewrite app_length. cbn [length]. lia. Qed.
Lemma before_mono : forall all pt p q, 0 <= p < q -> before_rank all pt p + ZL (own (pt p) (all p)) <= before_rank all pt q.
Proof.
  intros all pt p q H. unfold before_rank. rewrite (zrange_app 0 p q), psum_app, (zrange_cons p q) by lia. cbn [psum]. assert (0 <= psum (fun q => ZL (own (pt q) (all q))) (zrange (p + 1) q)) by (apply psum_nonneg; intros; unfold ZL; lia). lia.
Qed.

(** Two entities with owners have different numbers, and all numbers from 1 on are
    used. *)
Lemma in_order_one : forall n k all pt xs ys, in_order n k all pt xs ys -> forall p e q e', on n p -> on n q -> In e (all p) -> In e' (all q) -> pt p e <> PGHOST -> pt q e' <> PGHOST -> x_gid (ys p) e = x_gid (ys q) e' -> p = q /\ e = e'.
Proof.
  intros n k all pt xs ys [IO _] p e q e' Hp Hq He He' G G' Q. destruct (in_split _ _ He) as (a & b & E). destruct (in_split _ _ He') as (a' & b' & E'). rewrite (IO p e a b), (IO q e' a' b') in Q by auto.
  pose proof (own_lt _ _ _ _ _ E G). pose proof (own_lt _ _ _ _ _ E' G'). unfold on in *. assert (p = q). { destruct (Z.lt_trichotomy p q) as [L|[L|L]]; auto. pose proof (before_mono all pt p q ltac:(lia)). lia. pose proof (before_mono all pt q p ltac:(lia)). lia. }
  subst q. split; auto. apply (own_pos (pt p) (all p) e a b e' a' b'); auto. lia.
Qed.
Lemma in_order_range : forall n k all pt xs ys, in_order n k all pt xs ys -> forall p e, on n p -> In e (all p) -> pt p e <> PGHOST -> before_rank all pt p < x_gid (ys p) e <= before_rank all pt (p + 1) /\ 1 <= x_gid (ys p) e <= before_rank all pt n.
Proof.
  intros n k all pt xs ys [IO _] p e Hp He G. destruct (in_split _ _ He) as (a & b & E). rewrite (IO p e a b) by auto. pose proof (own_lt _ _ _ _ _ E G). unfold on in Hp. pose proof (before_mono all pt p (p + 1) ltac:(lia)). pose proof (before_mono all pt p n ltac:(lia)).
  assert (0 <= before_rank all pt p) by (apply psum_nonneg; intros; unfold ZL; lia). lia.
Qed.
Lemma in_order_all : forall n k all pt xs ys, 0 <= n -> in_order n k all pt xs ys -> forall g, 1 <= g <= before_rank all pt n -> exists p e, on n p /\ In e (all p) /\ pt p e <> PGHOST /\ x_gid (ys p) e = g.
Proof.
  intros n k all pt xs ys Hn [IO _] g Hg. assert (P : exists p, on n p /\ before_rank all pt p < g <= before_rank all pt p + ZL (own (pt p) (all p))).
  { revert Hg. unfold on. replace n with (Z.of_nat (Z.to_nat n)) by lia. generalize (Z.to_nat n) as m. induction m as [|m IH]; intros Hg. unfold before_rank in Hg. rewrite zrange_nil in Hg by lia. cbn [psum] in Hg. lia.
    assert (E : before_rank all pt (Z.of_nat (S m)) = before_rank all pt (Z.of_nat m) + ZL (own (pt (Z.of_nat m)) (all (Z.of_nat m)))) by (unfold before_rank; replace (Z.of_nat (S m)) with (Z.of_nat m + 1) by lia; rewrite zrange_snoc, psum_app by lia; cbn [psum]; lia).
    destruct (Z_lt_le_dec (before_rank all pt (Z.of_nat m)) g) as [L|L]. exists (Z.of_nat m). lia. destruct IH as (p & A & B). lia. exists p. split; auto. lia. }
  destruct P as (p & Hp & B). exists p. set (i := Z.to_nat (g - 1 - before_rank all pt p)). assert (Hi : (i < length (own (pt p) (all p)))%nat) by (unfold i, ZL in *; lia).
  set (e := nth i (own (pt p) (all p)) 0). assert (X : forall l i, (i < length (own (pt p) l))%nat -> exists a b, l = a ++ nth i (own (pt p) l) 0 :: b /\ length (own (pt p) a) = i /\ pt p (nth i (own (pt p) l) 0) <> PGHOST).
  { induction l as [|x l IH]; intros j Hj. cbn in Hj; lia. unfold own in *. cbn [filter] in *. destruct (Z.eqb_spec (pt p x) PGHOST) as [G|G]; cbn [negb] in *.
    - destruct (IH j Hj) as (a & b & E & L & Q). exists (x :: a), b. split. cbn [app]. f_equal. exact E. split; auto. cbn [filter]. replace (pt p x =? PGHOST) with true by lia. auto.
    - destruct j as [|j]. exists [], l. auto. cbn [length] in Hj. destruct (IH j ltac:(lia)) as (a & b & E & L & Q). cbn [nth]. exists (x :: a), b. split. cbn [app]. f_equal. exact E. split; auto. cbn [filter]. replace (pt p x =? PGHOST) with false by lia. cbn [negb length]. lia. }
  destruct (X (all p) i Hi) as (a & b & E & L & Q). fold e in E, Q. exists e. split; auto. split. rewrite E. apply in_or_app. cbn. auto. split; auto. rewrite (IO p e a b) by auto. unfold ZL. rewrite L. unfold i, ZL in *. lia.
Qed.

(** ** Kinds that are left alone *)
Definition kept (n : Z) (l : Z -> list Z) (xs ys : Z -> xrank) : Prop := forall p, on n p -> x_gh (ys p) = x_gh (xs p) /\ x_ov (ys p) = x_ov (xs p) /\ x_mas (ys p) = x_mas (xs p) /\ forall e, In e (l p) -> x_gid (ys p) e = x_gid (xs p) e.
Lemma kept_owner : forall n k all pt xs ys p g o, spread n k all pt xs -> kept n all xs ys -> on n p -> In g (x_gh (xs p) k) -> owner_of xs k p g o <-> owner_of ys k p g o.
Proof.
  intros n k all pt xs ys p g o SP K Hp Hg. destruct (K p Hp) as (K1 & K2 & K3 & K4). destruct (sh_ghost _ _ _ (sp_sh _ _ _ _ _ SP) p g Hp Hg) as (Hq & _). unfold owner_of. rewrite K3. destruct (K _ Hq) as (J1 & J2 & J3 & J4). rewrite J2. apply (sp_gh _ _ _ _ _ SP) in Hg; auto. destruct Hg as (Ig & _). rewrite (K4 g Ig).
  split; intros (A & B); (split; [auto|]); destruct (sp_ov _ _ _ _ _ SP _ o Hq A) as (Io & _); rewrite (J4 o Io) in *; auto.
Qed.
Lemma kept_spread : forall n k all pt xs ys, spread n k all pt xs -> kept n all xs ys -> spread n k all pt ys.
Proof.
  intros n k all pt xs ys SP K. pose proof SP as [S1 S2 S3 S4 [T1 T2 T3]]. constructor; auto.
  - intros p e Hp. destruct (K p Hp) as (-> & _). auto.
  - intros p e Hp. destruct (K p Hp) as (_ & -> & _). auto.
  - constructor.
    + intros q Hq. destruct (K q Hq) as (_ & K2 & _ & K4). rewrite K2. replace (map (x_gid (ys q)) (x_ov (xs q) k)) with (map (x_gid (xs q)) (x_ov (xs q) k)). auto. apply map_ext_in. intros e He. symmetry. apply K4. apply (S3 q e Hq He).
    + intros q o Hq Ho. destruct (K q Hq) as (_ & K2 & _ & K4). rewrite K2 in Ho. rewrite K4. auto. apply (S3 q o Hq Ho).
    + intros p g Hp Hg. destruct (K p Hp) as (K1 & _ & K3 & _). rewrite K1 in Hg. rewrite K3. destruct (T3 p g Hp Hg) as (A & B & o & Ho). split; auto. split; auto. exists o. apply (kept_owner n k all pt xs ys); auto.
Qed.
Lemma in_order_left : forall n k all pt xs x1 ys, spread n k all pt xs -> kept n all xs x1 -> in_order n k all pt x1 ys -> in_order n k all pt xs ys.
Proof.
  intros n k all pt xs x1 ys SP K [A B]. constructor; auto. intros p g o Hp Hg Ho. destruct (K p Hp) as (K1 & _ & K3 & _). rewrite <- K3. apply B; auto. rewrite K1; auto. apply (kept_owner n k all pt xs x1); auto.
Qed.
Lemma in_order_right : forall n k all pt xs y1 ys, spread n k all pt xs -> kept n all y1 ys -> in_order n k all pt xs y1 -> in_order n k all pt xs ys.
Proof.
  intros n k all pt xs y1 ys SP K [A B]. constructor.
  - intros p e a b Hp E G. destruct (K p Hp) as (_ & _ & _ & K4). rewrite K4. eauto. rewrite E. apply in_or_app. cbn; auto.
  - intros p g o Hp Hg Ho. destruct (sh_ghost _ _ _ (sp_sh _ _ _ _ _ SP) p g Hp Hg) as (Hq & _). destruct (K p Hp) as (_ & _ & _ & K4). destruct (K _ Hq) as (_ & _ & _ & J4). pose proof (proj1 (sp_gh _ _ _ _ _ SP p g Hp) Hg) as (Ig & _). destruct Ho as (O1 & O2). destruct (sp_ov _ _ _ _ _ SP _ o Hq O1) as (Io & _). rewrite K4, J4 by auto. apply B; auto. split; auto.
Qed.

(** ** All kinds *)
Definition chosen (mtype k : Z) : bool := (mtype =? k) || (mtype =? MALLTYPE).
Lemma kinds_ok : forall N mtype (all : Z -> Z -> list Z) pt ks xs, (2 <= N)%nat -> let n := Z.of_nat N in NoDup ks -> (forall k, In k ks -> 0 <= k <= 3) -> adj_history N xs ->
  (forall k, In k ks -> spread n k (fun p => all p k) pt xs) -> (forall k, In k ks -> (forall p, on n p -> all p k <> []) \/ (forall p, on n p -> all p k = [])) ->
  (forall p k k' e, on n p -> In k ks -> In k' ks -> In e (all p k) -> In e (all p k') -> k = k') ->
  exists ys, (forall lo, protocol n lo (lo + 6 * Z.of_nat (length ks)) (fun p => pfold (fun k x => if negb (Z.of_nat (length (all p k)) =? 0) && ((mtype =? k) || (mtype =? MALLTYPE)) then MESH_Renumber_EntityGlobalIDs n p k (all p k) (pt p) x else Ret x) ks (xs p)) ys) /\
    (forall k, In k ks -> chosen mtype k = true -> in_order n k (fun p => all p k) pt xs ys) /\
    forall p, on n p -> x_gh (ys p) = x_gh (xs p) /\ x_ov (ys p) = x_ov (xs p) /\ x_mas (ys p) = x_mas (xs p) /\ x_bnd (ys p) = x_bnd (xs p) /\ forall e, (forall k, In k ks -> chosen mtype k = true -> ~ In e (all p k)) -> x_gid (ys p) e = x_gid (xs p) e.
Proof.
  intros N mtype all pt ks xs HN n. revert xs. induction ks as [|k ks IH]; intros xs ND KR AH SP EM DJ.
  { exists xs. split. intros lo. cbn [pfold]. apply protocol_ret. split. intros k []. intros p Hp. auto 10. }
  inversion ND as [|? ? Nk ND']; subst. 
  assert (Hk : In k (k :: ks)) by (cbn; auto).
  assert (ST : exists x1, (forall lo, protocol n lo (lo + 6) (fun p => if negb (Z.of_nat (length (all p k)) =? 0) && ((mtype =? k) || (mtype =? MALLTYPE)) then MESH_Renumber_EntityGlobalIDs n p k (all p k) (pt p) (xs p) else Ret (xs p)) x1) /\ adj_history N x1 /\
     (chosen mtype k = true -> in_order n k (fun p => all p k) pt xs x1) /\ forall p, on n p -> x_gh (x1 p) = x_gh (xs p) /\ x_ov (x1 p) = x_ov (xs p) /\ x_mas (x1 p) = x_mas (xs p) /\ x_bnd (x1 p) = x_bnd (xs p) /\ forall e, (chosen mtype k = true -> ~ In e (all p k)) -> x_gid (x1 p) e = x_gid (xs p) e).
  { destruct (chosen mtype k) eqn:CH.
    - destruct (EM k Hk) as [NE|NE].
      + destruct (entity_ok N k (fun p => all p k) pt xs HN (KR k Hk) AH (SP k Hk)) as (x1 & P1 & A1 & I1 & R1). exists x1. split.
        { intros lo. eapply protocol_ext; [|apply P1]. intros p Hp. cbv beta. unfold chosen in CH. rewrite CH. specialize (NE p Hp). destruct (all p k); [congruence|]. reflexivity. }
        split; auto. split; auto. intros p Hp. destruct (R1 p Hp) as (B1 & B2 & B3 & B4 & B5). repeat (split; auto).
      + exists xs. split. { intros lo. eapply protocol_ext; [|apply protocol_ret]. intros p Hp. cbv beta. rewrite NE by auto. reflexivity. }
        split; auto. split. { intros _. constructor. intros p e a b Hp E. cbv beta in E. rewrite NE in E by auto. destruct a; discriminate. intros p g o Hp Hg. apply (sp_gh _ _ _ _ _ (SP k Hk)) in Hg; auto. cbv beta in Hg. rewrite NE in Hg by auto. destruct Hg as ([] & _). }
        intros p Hp. auto 10.
    - exists xs. split. { intros lo. eapply protocol_ext; [|apply protocol_ret]. intros p Hp. cbv beta. unfold chosen in CH. rewrite CH, andb_false_r. reflexivity. }
      split; auto. split. discriminate. intros p Hp. auto 10. }
  destruct ST as (x1 & P1 & A1 & I1 & R1).
  assert (KP : forall k', In k' ks -> kept n (fun p => all p k') xs x1). { intros k' Hk' p Hp. destruct (R1 p Hp) as (B1 & B2 & B3 & B4 & B5). split; auto. split; auto. split; auto. intros e He. apply B5. intros _ He'. assert (k = k') by (apply (DJ p k k' e); cbn; auto). subst. contradiction. }
  destruct (IH x1) as (ys & P2 & I2 & R2); auto.
  - intros; apply KR; cbn; auto.
  - intros k' Hk'. apply kept_spread with (xs := xs); auto. apply SP. cbn; auto.
  - intros; apply EM; cbn; auto.
  - intros; eapply DJ; cbn; eauto.
  - exists ys. split; [|split].
    + intros lo. cbn [pfold]. eapply (protocol_bind _ _ n lo (lo + 6) (lo + 6 * Z.of_nat (length (k :: ks))) _ x1); [cbn [length]; lia|apply P1|]. replace (lo + 6 * Z.of_nat (length (k :: ks))) with (lo + 6 + 6 * Z.of_nat (length ks)) by (cbn [length]; lia). apply P2.
    + intros k' [<-|Hk'] CH.
      * apply in_order_right with (y1 := x1); auto. intros p Hp. destruct (R2 p Hp) as (B1 & B2 & B3 & B4 & B5). split; auto. split; auto. split; auto. intros e He. apply B5. intros k' Hk' _ He'. assert (k = k') by (apply (DJ p k k' e); cbn; auto). subst. contradiction.
      * apply in_order_left with (x1 := x1); auto. apply SP; cbn; auto.
    + intros p Hp. destruct (R1 p Hp) as (B1 & B2 & B3 & B4 & B5). destruct (R2 p Hp) as (C1 & C2 & C3 & C4 & C5). split. congruence. split. congruence. split. congruence. split. congruence. intros e He. rewrite C5 by (intros; apply He; cbn; auto). apply B5. intros CH. apply He; cbn; auto.
Qed.

Lemma sort_lists_ok : forall gid l, (forall k e, 0 <= k <= 3 -> In e (l k) -> 0 <= gid e < 2 ^ 31) ->
  exists r, sort_lists gid l = Ok r /\ forall k, 0 <= k <= 3 -> Permutation (r k) (l k) /\ StronglySorted Z.le (map gid (r k)).
Proof.
  intros gid l H. assert (Q : forall k, 0 <= k <= 3 -> exists r, pqsort (compareGlobalID gid) (l k) = Ok r /\ Permutation r (l k) /\ StronglySorted Z.le (map gid r)).
  { intros k Hk. destruct (pqsort_ord (compareGlobalID gid) (fun a b => gid a - gid b) (l k)) as (r & E & P & SS).
    - intros a b Ha Hb. pose proof (H k a Hk Ha). pose proof (H k b Hk Hb). unfold compareGlobalID, ck32. replace ((- 2 ^ 31 <=? _) && _) with true by lia. auto.
    - intros; lia.
    - intros; lia.
    - exists r. split; auto. split; auto. clear -SS. induction SS as [|a r H IH F]; cbn [map]; constructor; auto. rewrite Forall_forall in *. intros x Hx. apply in_map_iff in Hx. destruct Hx as (y & <- & Hy). specialize (F y Hy). cbv beta in F. lia. }
  destruct (Q 0 ltac:(lia)) as (r0 & E0 & P0 & S0). destruct (Q 1 ltac:(lia)) as (r1 & E1 & P1 & S1). destruct (Q 2 ltac:(lia)) as (r2 & E2 & P2 & S2). destruct (Q 3 ltac:(lia)) as (r3 & E3 & P3 & S3).
  unfold sort_lists. cbn [foldM]. rewrite E0. cbn [bind]. rewrite zupd_other by lia. rewrite E1. cbn [bind]. rewrite !zupd_other by lia. rewrite E2. cbn [bind]. rewrite !zupd_other by lia. rewrite E3. cbn [bind].
  eexists. split. reflexivity. intros k Hk. unfold zupd. assert (C : k = 0 \/ k = 1 \/ k = 2 \/ k = 3) by lia. destruct C as [->|[->|[->| ->]]]; cbn; auto.
Qed.

Lemma sorted_lt : forall l, StronglySorted Z.le l -> NoDup l -> StronglySorted Z.lt l.
Proof. intros l H. induction H as [|x l H IH F]; intros ND; constructor; inversion ND; subst; auto. rewrite Forall_forall in *. intros y Hy. specialize (F y Hy). assert (x <> y) by congruence. lia. Qed.
Lemma map_nd : forall (f : Z -> Z) l, NoDup l -> (forall a b, In a l -> In b l -> f a = f b -> a = b) -> NoDup (map f l).
Proof. intros f l H. induction H as [|x l Nx H IH]; intros J; cbn [map]; constructor. intro Q. apply in_map_iff in Q. destruct Q as (y & E & Hy). assert (y = x) by (apply J; cbn; auto). congruence. apply IH. intros; apply J; cbn; auto. Qed.
Lemma ss_nd : forall (f : Z -> Z) l, StronglySorted Z.lt (map f l) -> NoDup (map f l).
Proof. intros f l H. remember (map f l) as m. clear Heqm. induction H as [|x m H IH F]; constructor; auto. intro Q. rewrite Forall_forall in F. specialize (F x Q). lia. Qed.
Lemma nd_map_inj : forall (f : Z -> Z) l a b, NoDup (map f l) -> In a l -> In b l -> f a = f b -> a = b.
Proof.
  intros f. induction l as [|x l IH]; intros a b ND Ha Hb E. contradiction. cbn [map] in ND. inversion ND; subst. destruct Ha as [<-|Ha]; destruct Hb as [<-|Hb]; auto.
  exfalso. apply H1. rewrite E. apply in_map; auto. exfalso. apply H1. rewrite <- E. apply in_map; auto.
Qed.

(** The distributed mesh before: entities of all kinds, with the kinds spread over the
    ranks.  Either all ranks have entities of a kind or none has. *)
Record distributed (n : Z) (all : Z -> Z -> list Z) (pt : Z -> Z -> Z) (xs : Z -> xrank) : Prop := {
  di_kind : forall k, 0 <= k <= 3 -> spread n k (fun p => all p k) pt xs;
  di_some : forall k, 0 <= k <= 3 -> (forall p, on n p -> all p k <> []) \/ (forall p, on n p -> all p k = []);
  di_dis : forall p k k' e, on n p -> 0 <= k <= 3 -> 0 <= k' <= 3 -> In e (all p k) -> In e (all p k') -> k = k' }.

Theorem C30_renumber : forall N mtype all pt xs, (2 <= N)%nat -> let n := Z.of_nat N in adj_history N xs -> distributed n all pt xs ->
  exists ys, never_stuck_with n (fun p => MESH_Renumber_GlobalIDs n p mtype (all p) (pt p) (xs p)) ys /\
    (forall k, 0 <= k <= 3 ->
      (chosen mtype k = true ->
        (forall p e q e', on n p -> on n q -> In e (all p k) -> In e' (all q k) -> pt p e <> PGHOST -> pt q e' <> PGHOST -> x_gid (ys p) e = x_gid (ys q) e' -> p = q /\ e = e') /\
        (forall p e a b, on n p -> all p k = a ++ e :: b -> pt p e <> PGHOST -> x_gid (ys p) e = before_rank (fun p => all p k) pt p + 1 + ZL (own (pt p) a)) /\
        (forall g, 1 <= g <= before_rank (fun p => all p k) pt n -> exists p e, on n p /\ In e (all p k) /\ pt p e <> PGHOST /\ x_gid (ys p) e = g)) /\
      (forall p g o, on n p -> In g (x_gh (xs p) k) -> owner_of xs k p g o -> x_gid (ys p) g = x_gid (ys (x_mas (xs p) g)) o /\ owner_of ys k p g o) /\
      shared n k ys) /\
    forall p, on n p -> x_mas (ys p) = x_mas (xs p) /\ x_bnd (ys p) = x_bnd (xs p) /\
      (forall e, (forall k, 0 <= k <= 3 -> chosen mtype k = true -> ~ In e (all p k)) -> x_gid (ys p) e = x_gid (xs p) e) /\
      forall k, 0 <= k <= 3 -> Permutation (x_gh (ys p) k) (x_gh (xs p) k) /\ Permutation (x_ov (ys p) k) (x_ov (xs p) k) /\ StronglySorted Z.le (map (x_gid (ys p)) (x_gh (ys p) k)) /\ StronglySorted Z.lt (map (x_gid (ys p)) (x_ov (ys p) k)).
Proof.
  intros N mtype all pt xs HN n AH [DK DS DD]. assert (KS : forall k, In k [0; 1; 2; 3] <-> 0 <= k <= 3) by (intros k; cbn [In]; lia).
  destruct (kinds_ok N mtype all pt [0; 1; 2; 3] xs HN) as (y & P & IO & R); auto.
  { repeat constructor; cbn; lia. } { intros k Hk. apply KS; auto. } { intros k Hk. apply DK, KS; auto. } { intros k Hk. apply DS, KS; auto. } { intros p k k' e Hp Hk Hk'. apply DD; auto; apply KS; auto. }
  fold n in P, IO, R.
  assert (KE : forall k, 0 <= k <= 3 -> chosen mtype k = false -> kept n (fun p => all p k) xs y).
  { intros k Hk CH p Hp. destruct (R p Hp) as (R1 & R2 & R3 & R4 & R5). split; auto. split; auto. split; auto. intros e He. apply R5. intros k' Hk' CH' He'. assert (k = k') by (apply (DD p k k' e); auto; apply KS; auto). subst. congruence. }
  assert (GH : forall k p g o, 0 <= k <= 3 -> on n p -> In g (x_gh (xs p) k) -> owner_of xs k p g o -> x_gid (y p) g = x_gid (y (x_mas (xs p) g)) o).
  { intros k p g o Hk Hp Hg Ho. destruct (chosen mtype k) eqn:CH. apply (io_gh _ _ _ _ _ _ (IO k (proj2 (KS k) Hk) CH)); auto.
    destruct (sh_ghost _ _ _ (sp_sh _ _ _ _ _ (DK k Hk)) p g Hp Hg) as (Hq & _). destruct (KE k Hk CH p Hp) as (_ & _ & _ & K4). destruct (KE k Hk CH _ Hq) as (_ & _ & _ & J4). destruct Ho as (O1 & O2). rewrite K4, J4; auto. apply (sp_ov _ _ _ _ _ (DK k Hk) _ o Hq O1). apply (sp_gh _ _ _ _ _ (DK k Hk) p g Hp); auto. }
  assert (OR : forall k p e, 0 <= k <= 3 -> on n p -> In e (x_ov (xs p) k) -> 0 <= x_gid (y p) e < 2 ^ 31).
  { intros k p e Hk Hp He. destruct (sp_ov _ _ _ _ _ (DK k Hk) p e Hp He) as (I & G). destruct (chosen mtype k) eqn:CH.
    - destruct (in_order_range _ _ _ _ _ _ (IO k (proj2 (KS k) Hk) CH) p e Hp I G) as (_ & A). pose proof (sp_sum _ _ _ _ _ (DK k Hk)) as B. rewrite <- zranks in B. unfold before_rank in A. lia.
    - destruct (KE k Hk CH p Hp) as (_ & _ & _ & K4). rewrite K4 by auto. apply (sh_range _ _ _ (sp_sh _ _ _ _ _ (DK k Hk))); auto. }
  assert (GR : forall k p e, 0 <= k <= 3 -> on n p -> In e (x_gh (xs p) k) -> 0 <= x_gid (y p) e < 2 ^ 31).
  { intros k p e Hk Hp He. destruct (sh_ghost _ _ _ (sp_sh _ _ _ _ _ (DK k Hk)) p e Hp He) as (Hq & _ & o & Ho). rewrite (GH k p e o) by auto. apply (OR k); auto. apply Ho. }
  assert (SG : forall p, on n p -> exists r, sort_lists (x_gid (y p)) (x_gh (y p)) = Ok r /\ forall k, 0 <= k <= 3 -> Permutation (r k) (x_gh (xs p) k) /\ StronglySorted Z.le (map (x_gid (y p)) (r k))).
  { intros p Hp. destruct (R p Hp) as (R1 & _). rewrite R1. apply sort_lists_ok. intros k e Hk He. apply (GR k); auto. }
  assert (SO : forall p, on n p -> exists r, sort_lists (x_gid (y p)) (x_ov (y p)) = Ok r /\ forall k, 0 <= k <= 3 -> Permutation (r k) (x_ov (xs p) k) /\ StronglySorted Z.le (map (x_gid (y p)) (r k))).
  { intros p Hp. destruct (R p Hp) as (_ & R2 & _). rewrite R2. apply sort_lists_ok. intros k e Hk He. apply (OR k); auto. }
  set (rg := fun p => un (fun _ => []) (sort_lists (x_gid (y p)) (x_gh (y p)))). set (ro := fun p => un (fun _ => []) (sort_lists (x_gid (y p)) (x_ov (y p)))).
  assert (RG : forall p, on n p -> sort_lists (x_gid (y p)) (x_gh (y p)) = Ok (rg p) /\ forall k, 0 <= k <= 3 -> Permutation (rg p k) (x_gh (xs p) k) /\ StronglySorted Z.le (map (x_gid (y p)) (rg p k))).
  { intros p Hp. destruct (SG p Hp) as (r & E & H). unfold rg. rewrite E. cbn [un]. auto. }
  assert (RO : forall p, on n p -> sort_lists (x_gid (y p)) (x_ov (y p)) = Ok (ro p) /\ forall k, 0 <= k <= 3 -> Permutation (ro p k) (x_ov (xs p) k) /\ StronglySorted Z.le (map (x_gid (y p)) (ro p k))).
  { intros p Hp. destruct (SO p Hp) as (r & E & H). unfold ro. rewrite E. cbn [un]. auto. }
  assert (OJ : forall k p, 0 <= k <= 3 -> on n p -> NoDup (map (x_gid (y p)) (x_ov (xs p) k))).
  { intros k p Hk Hp. pose proof (ss_nd _ _ (sh_sorted _ _ _ (sp_sh _ _ _ _ _ (DK k Hk)) p Hp)) as ND. destruct (chosen mtype k) eqn:CH.
    - apply map_nd. apply NoDup_map_inv in ND; auto. intros a b Ha Hb E. destruct (sp_ov _ _ _ _ _ (DK k Hk) p a Hp Ha). destruct (sp_ov _ _ _ _ _ (DK k Hk) p b Hp Hb). apply (in_order_one _ _ _ _ _ _ (IO k (proj2 (KS k) Hk) CH) p a p b); auto.
    - destruct (KE k Hk CH p Hp) as (_ & _ & _ & K4). replace (map (x_gid (y p)) (x_ov (xs p) k)) with (map (x_gid (xs p)) (x_ov (xs p) k)); auto. apply map_ext_in. intros e He. symmetry. apply K4. apply (sp_ov _ _ _ _ _ (DK k Hk) p e Hp He). }
  assert (SL : forall k p, 0 <= k <= 3 -> on n p -> StronglySorted Z.lt (map (x_gid (y p)) (ro p k))).
  { intros k p Hk Hp. destruct (RO p Hp) as (_ & A). destruct (A k Hk) as (A1 & A2). apply sorted_lt; auto. eapply Permutation_NoDup; [|apply (OJ k p); auto]. apply Permutation_map, Permutation_sym; auto. }
  exists (fun p => set_lists (y p) (rg p) (ro p)). split; [|split].
  - apply (protocol_runs _ n 0 (0 + 6 * Z.of_nat (length [0; 1; 2; 3]))). unfold n; lia. unfold MESH_Renumber_GlobalIDs.
    eapply (protocol_bind _ _ n 0 (0 + 6 * Z.of_nat (length [0; 1; 2; 3])) (0 + 6 * Z.of_nat (length [0; 1; 2; 3])) _ y); [lia|apply P|].
    eapply protocol_lift with (v := rg). intros p Hp. apply RG; auto. eapply protocol_lift with (v := ro). intros p Hp. apply RO; auto. apply protocol_ret.
  - intros k Hk. assert (OWN : forall p g o, on n p -> In g (x_gh (xs p) k) -> owner_of xs k p g o -> x_gid (y p) g = x_gid (y (x_mas (xs p) g)) o /\ owner_of (fun p => set_lists (y p) (rg p) (ro p)) k p g o).
    { intros p g o Hp Hg Ho. pose proof (GH k p g o Hk Hp Hg Ho) as E. split; auto. unfold owner_of. cbn [set_lists x_mas x_ov x_gid]. destruct (R p Hp) as (_ & _ & -> & _). split; auto. destruct (sh_ghost _ _ _ (sp_sh _ _ _ _ _ (DK k Hk)) p g Hp Hg) as (Hq & _). destruct (RO _ Hq) as (_ & A). destruct (A k Hk) as (A1 & _). eapply Permutation_in. apply Permutation_sym, A1. apply Ho. }
    split; [|split].
    + intros CH. pose proof (IO k (proj2 (KS k) Hk) CH) as I. split; [|split].
      * apply (in_order_one _ _ _ _ _ _ I).
      * apply (io_own _ _ _ _ _ _ I).
      * apply (in_order_all n k (fun p => all p k) pt xs y); auto. unfold n; lia.
    + exact OWN.
    + constructor; cbn [set_lists x_mas x_ov x_gid x_gh].
      * intros q Hq. apply SL; auto.
      * intros q o Hq Ho. apply (OR k); auto. destruct (RO q Hq) as (_ & A). destruct (A k Hk) as (A1 & _). eapply Permutation_in; eauto.
      * intros p g Hp Hg. destruct (RG p Hp) as (_ & A). destruct (A k Hk) as (A1 & _). eapply Permutation_in in Hg; [|exact A1]. destruct (R p Hp) as (_ & _ & -> & _). destruct (sh_ghost _ _ _ (sp_sh _ _ _ _ _ (DK k Hk)) p g Hp Hg) as (Hq & Ne & o & Ho). split; auto. split; auto. exists o. apply OWN; auto.
  - intros p Hp. destruct (R p Hp) as (R1 & R2 & R3 & R4 & R5). cbn [set_lists x_mas x_ov x_gid x_gh x_bnd]. split; auto. split; auto. split. { intros e He. apply R5. intros k Hk. apply He, KS; auto. }
    intros k Hk. destruct (RG p Hp) as (_ & A). destruct (A k Hk) as (A1 & A2). destruct (RO p Hp) as (_ & B). destruct (B k Hk) as (B1 & _). split; auto.
Qed.
Print Assumptions C30_renumber.

(** ** Example: the three ranks of the attribute exchange, rank 2 with a face of its own *)
Definition ren_all (p k : Z) : list Z := if k =? 2 then match p with 0 => [3; 1; 2; 4] | 1 => [1; 2; 3] | _ => [1; 2; 7] end else [].
Definition ren_pt (p e : Z) : Z := match p with 0 => if e =? 4 then PGHOST else POVERLAP | 1 => if e =? 1 then POVERLAP else PGHOST | _ => if e =? 7 then PINTERIOR else PGHOST end.
Lemma ren_before : forall val, distributed 3 ren_all ren_pt (ex_x val).
Proof.
  intros val. assert (C : forall k, 0 <= k <= 3 -> k = 2 \/ (forall p, ren_all p k = [] /\ x_gh (ex_x val p) k = [] /\ x_ov (ex_x val p) k = [])).
  { intros k Hk. destruct (Z.eq_dec k 2) as [E|E]; auto. right. intros p. unfold ren_all, ex_x. cbn [x_gh x_ov]. replace (k =? 2) with false by lia. auto. }
  constructor.
  - intros k Hk. destruct (C k Hk) as [->|E].
    + constructor.
      * intros p Hp. destruct (ex_ranks p Hp) as [->|[->| ->]]; cbn; repeat constructor; cbn; lia.
      * intros p e Hp. unfold ren_pt, PGHOST, POVERLAP, PINTERIOR. destruct (ex_ranks p Hp) as [->|[->| ->]]; cbn [ex_x x_gh ren_all Z.eqb Pos.eqb In].
        { destruct (Z.eqb_spec e 4); intuition lia. } { destruct (Z.eqb_spec e 1); intuition lia. } { destruct (Z.eqb_spec e 7); intuition lia. }
      * intros p e Hp. unfold ren_pt, PGHOST, POVERLAP, PINTERIOR. destruct (ex_ranks p Hp) as [->|[->| ->]]; cbn [ex_x x_ov ren_all Z.eqb Pos.eqb In]; intros He.
        { destruct (Z.eqb_spec e 4); intuition lia. } { destruct (Z.eqb_spec e 1); intuition lia. } { contradiction. }
      * vm_compute. reflexivity.
      * apply ex_shared.
    + constructor.
      * intros p Hp. destruct (E p) as (-> & _). constructor.
      * intros p e Hp. destruct (E p) as (-> & -> & _). cbn. tauto.
      * intros p e Hp He. destruct (E p) as (_ & _ & Q). rewrite Q in He. contradiction.
      * assert (Z0 : forall l, psum (fun q => ZL (own (ren_pt q) (ren_all q k))) l = 0). { induction l as [|q l IH]; cbn [psum]; auto. rewrite IH. destruct (E q) as (-> & _). reflexivity. } rewrite Z0. lia.
      * constructor. intros q Hq. destruct (E q) as (_ & _ & ->). constructor. intros q o Hq Ho. destruct (E q) as (_ & _ & Q). rewrite Q in Ho. contradiction. intros p g Hp Hg. destruct (E p) as (_ & Q & _). rewrite Q in Hg. contradiction.
  - intros k Hk. destruct (C k Hk) as [->|E]. left. intros p Hp. destruct (ex_ranks p Hp) as [->|[->| ->]]; discriminate. right. intros p Hp. apply E.
  - intros p k k' e Hp Hk Hk' He He'. destruct (C k Hk) as [->|E]; [|destruct (E p) as (Q & _); rewrite Q in He; contradiction]. destruct (C k' Hk') as [->|E]; auto. destruct (E p) as (Q & _); rewrite Q in He'; contradiction.
Qed.
Example C30_renumber_ex : adj_history 3 (ex_x (fun _ _ => [])) /\ distributed 3 ren_all ren_pt (ex_x (fun _ _ => [])) /\
  exists ys, never_stuck_with 3 (fun p => MESH_Renumber_GlobalIDs 3 p MALLTYPE (ren_all p) (ren_pt p) (ex_x (fun _ _ => []) p)) ys /\
    map (x_gid (ys 0)) [3; 1; 2; 4] = [1; 2; 3; 4] /\ map (x_gid (ys 1)) [1; 2; 3] = [4; 2; 3] /\ map (x_gid (ys 2)) [1; 2; 7] = [1; 4; 5].
Proof.
  split. apply ex_history. split. apply ren_before. destruct (C30_renumber 3 MALLTYPE ren_all ren_pt (ex_x (fun _ _ => [])) ltac:(lia) (ex_history _) (ren_before _)) as (ys & Rn & K & _). exists ys. split. exact Rn.
  destruct (K 2 ltac:(lia)) as (K1 & K2 & _). destruct (K1 eq_refl) as (_ & OO & _). change (Z.of_nat 3) with 3 in *.
  assert (O0 : on 3 0) by (unfold on; lia). assert (O1 : on 3 1) by (unfold on; lia). assert (O2 : on 3 2) by (unfold on; lia).
  assert (A1 : x_gid (ys 0) 3 = 1) by (apply (OO 0 3 [] [1; 2; 4] O0); [reflexivity|discriminate]). assert (A2 : x_gid (ys 0) 1 = 2) by (apply (OO 0 1 [3] [2; 4] O0); [reflexivity|discriminate]). assert (A3 : x_gid (ys 0) 2 = 3) by (apply (OO 0 2 [3; 1] [4] O0); [reflexivity|discriminate]).
  assert (A4 : x_gid (ys 1) 1 = 4) by (apply (OO 1 1 [] [2; 3] O1); [reflexivity|discriminate]). assert (A5 : x_gid (ys 2) 7 = 5) by (apply (OO 2 7 [1; 2] [] O2); [reflexivity|discriminate]).
  assert (B1 : x_gid (ys 0) 4 = x_gid (ys 1) 1) by (apply (K2 0 4 1 O0); [cbn; auto|split; cbn; auto]). assert (B2 : x_gid (ys 1) 2 = x_gid (ys 0) 1) by (apply (K2 1 2 1 O1); [cbn; auto|split; cbn; auto]). assert (B3 : x_gid (ys 1) 3 = x_gid (ys 0) 2) by (apply (K2 1 3 2 O1); [cbn; auto|split; cbn; auto]).
  assert (B4 : x_gid (ys 2) 1 = x_gid (ys 0) 3) by (apply (K2 2 1 3 O2); [cbn; auto|split; cbn; auto]). assert (B5 : x_gid (ys 2) 2 = x_gid (ys 1) 1) by (apply (K2 2 2 1 O2); [cbn; auto|split; cbn; auto]).
  cbn [map]. rewrite A1, A2, A3, A5, B1, B2, B3, B4, B5, A1, A2, A3, A4. auto.
Qed.

(** A rank without entities of a kind does not take part in the exchange that the
    others begin: the first rank waits for ever. *)
Definition lone_all (p k : Z) : list Z := if (p =? 0) && (k =? 2) then [1] else [].
Definition lone (p : Z) : xrank := mkX (nth (Z.to_nat p) (ParProps.fresh 2) pmesh_new) 0 (fun _ => []) (fun _ => []) (fun _ => 0) (fun _ => 0) (fun _ => false) (fun _ => []).
Theorem C30_empty_rank_refuted : exists all pt xs, adj_history 2 xs /\ (forall k, 0 <= k <= 3 -> spread 2 k (fun p => all p k) pt xs) /\
  (forall p k k' e, on 2 p -> 0 <= k <= 3 -> 0 <= k' <= 3 -> In e (all p k) -> In e (all p k') -> k = k') /\
  let w := init (fun p => MESH_Renumber_GlobalIDs 2 p MALLTYPE (all p) (pt p) (xs p)) in
  (exists r, procs w 1 = Ret r) /\ (forall r, procs w 0 <> Ret r) /\ (forall w', ~ step 2 w w') /\ forall ys, ~ never_stuck_with 2 (fun p => MESH_Renumber_GlobalIDs 2 p MALLTYPE (all p) (pt p) (xs p)) ys.
Proof.
  exists lone_all, (fun _ _ => PINTERIOR), lone.
  split. { exists [], (ParProps.fresh 2). split. reflexivity. split. { constructor; [|constructor]. intros p k q Hp Hq. contradiction. } split. reflexivity. split. left. reflexivity. intros H. specialize (H 0 ltac:(unfold on; lia)). discriminate. }
  split. { intros k Hk. constructor. - intros p Hp. unfold lone_all. destruct ((p =? 0) && (k =? 2)); repeat constructor. cbn. lia. - intros p e Hp. cbn. intuition discriminate. - intros p e Hp []. - assert (C : k = 0 \/ k = 1 \/ k = 2 \/ k = 3) by lia. destruct C as [->|[->|[->| ->]]]; vm_compute; reflexivity. - constructor. intros q Hq. constructor. intros q o Hq []. intros p g Hp []. }
  split. { intros p k k' e Hp Hk Hk' He He'. unfold lone_all in *. destruct (Z.eqb_spec p 0); [|contradiction]. destruct (Z.eqb_spec k 2); destruct (Z.eqb_spec k' 2); cbn in He, He'; try contradiction. lia. }
  set (ps := fun p => MESH_Renumber_GlobalIDs 2 p MALLTYPE (lone_all p) (fun _ => PINTERIOR) (lone p)). intros w.
  assert (E1 : exists r, ps 1 = Ret r) by (eexists; reflexivity). assert (E0 : exists x k, ps 0 = Col x k) by (eexists; eexists; reflexivity).
  destruct E1 as (r1 & E1). destruct E0 as (x0 & k0 & E0). assert (ON : forall p, on 2 p -> p = 0 \/ p = 1) by (unfold on; intros; lia). assert (O0 : on 2 0) by (unfold on; lia). assert (O1 : on 2 1) by (unfold on; lia).
  change (procs w) with ps.
  assert (NS : forall w', ~ step 2 w w').
  { intros w' St. inversion St as [a b Su|a p q tag m k Hp Hq E]; subst; [inversion Su as [a p q tag ty max k d l1 l2 Hp Hq E|a p q tag ty max kp kq d Hp Hq Hne E|a x k E]; subst|]; try change (procs w) with ps in E.
    - destruct (ON q Hq); subst; congruence. - destruct (ON p Hp); subst; congruence. - specialize (E 1 O1). congruence. - destruct (ON p Hp); subst; congruence. }
  split. exists r1; auto. split. intros r Q. congruence. split. auto. intros ys (M & H). destruct (H 0%nat w) as (_ & [F|(w' & Su)]). constructor. destruct F as (F & _). specialize (F 0 O0). change (procs w) with ps in F. congruence. apply (NS w'). constructor. auto.
Qed.
Print Assumptions C30_empty_rank_refuted.
