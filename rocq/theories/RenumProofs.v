(** Renumbering the global IDs (MESH_Renumber_GlobalIDs). *)
From Coq Require Import ZArith List Lia Bool Arith ZifyBool ZifyNat Permutation Sorting.Sorted.
From Verif Require Import Base BaseProofs ListSpec SortModel CompareModel CompareProps MeshModel AttModel AttProps TopoModel TopoSpec TopoProofs TopoProofs2 ParModel ParProps CommModel CommProofs CommProofs2 ExchModel ExchProofs ExchProofs2 ExchProofs4 LabelModel GidModel GidProofs GidProofs2 GidProofs3 GidProofs6.
Import ListNotations.
Open Scope Z_scope.

Lemma zranks : forall n, zrange 0 n = ranks n.
Proof. intros n. unfold zrange, ranks. rewrite Z.sub_0_r. apply map_ext. intros. lia. Qed.

(** The entities of a list that are not ghosts. *)
Definition own (pt : Z -> Z) (l : list Z) : list Z := filter (fun e => negb (pt e =? PGHOST)) l.

Lemma offsets_ok : forall N (c : Z -> Z), (0 < N)%nat -> (forall q, 0 <= c q) -> psum c (ranks (Z.of_nat N)) < 2 ^ 31 ->
  offsets (concat (map (fun q => [c q]) (ranks (Z.of_nat N)))) = Ok (map (fun p => psum c (zrange 0 p)) (ranks (Z.of_nat N))).
Proof.
  intros N c HN HC HS. replace (concat (map (fun q => [c q]) (ranks (Z.of_nat N)))) with (map c (ranks (Z.of_nat N))) by (generalize (ranks (Z.of_nat N)); induction l as [|x l IH]; cbn; auto; f_equal; auto).
  rewrite <- zranks in *. assert (ER : zrange 0 (Z.of_nat N) = zrange 0 (Z.of_nat N - 1) ++ [Z.of_nat N - 1]) by (rewrite <- zrange_snoc by lia; f_equal; lia).
  unfold offsets. replace (removelast (map c (zrange 0 (Z.of_nat N)))) with (map c (zrange 0 (Z.of_nat N - 1))) by (rewrite ER, map_app; cbn [map]; rewrite removelast_last; auto).
  assert (X : foldM (fun (s : list Z * Z) k => o <- ck32 (snd s + c k) ;; Ok (fst s ++ [o], o)) ([0], 0) (zrange 0 (Z.of_nat N - 1)) = Ok (map (fun p => psum c (zrange 0 p)) (zrange 0 (Z.of_nat N)), psum c (zrange 0 (Z.of_nat N - 1)))).
  { destruct (foldM_up _ (fun k (s : list Z * Z) => s = (map (fun p => psum c (zrange 0 p)) (zrange 0 (k + 1)), psum c (zrange 0 k))) (fun (s : list Z * Z) k => o <- ck32 (snd s + c k) ;; Ok (fst s ++ [o], o)) 0 (Z.of_nat N - 1) ([0], 0)) as (r & E & ->).
    - lia.
    - reflexivity.
    - intros k r Hk ->. cbn [fst snd]. assert (Ek : psum c (zrange 0 (k + 1)) = psum c (zrange 0 k) + c k) by (rewrite zrange_snoc, psum_app by lia; cbn [psum]; lia).
      assert (B : 0 <= psum c (zrange 0 k)) by (apply psum_nonneg; auto). assert (B2 : psum c (zrange 0 (k + 1)) <= psum c (zrange 0 (Z.of_nat N))). { rewrite (zrange_app 0 (k + 1) (Z.of_nat N)), psum_app by lia. assert (0 <= psum c (zrange (k + 1) (Z.of_nat N))) by (apply psum_nonneg; auto). lia. }
      specialize (HC k). unfold ck32. replace ((- 2 ^ 31 <=? _) && _) with true by lia. cbn [bind]. eexists. split. reflexivity. rewrite <- Ek. rewrite (zrange_snoc 0 (k + 1)), map_app by lia. reflexivity.
    - rewrite E. repeat f_equal. lia. }
  assert (Y : forall l s, foldM (fun (s : list Z * Z) k => o <- ck32 (snd s + c k) ;; Ok (fst s ++ [o], o)) s l = foldM (fun (s : list Z * Z) k => o <- ck32 (snd s + k) ;; Ok (fst s ++ [o], o)) s (map c l)).
  { induction l as [|x l IH]; intros s; cbn [foldM map]; auto. destruct (ck32 (snd s + c x)); cbn [bind]; auto. }
  rewrite <- Y, X. reflexivity.
Qed.

(** The new number of each entity that is not a ghost. *)
Lemma new_ids_ok : forall off (pt : Z -> Z) v0 l, NoDup l -> 0 <= off -> off + ZL (own pt l) < 2 ^ 31 ->
  exists v c, foldM (fun (s : (Z -> list Z) * Z) e => if negb (pt e =? PGHOST) then g <- ck32 (off + (snd s + 1)) ;; Ok (zupd (fst s) e [g], snd s + 1) else Ok s) (v0, 0) l = Ok (v, c) /\
    (forall e a b, l = a ++ e :: b -> pt e <> PGHOST -> v e = [off + 1 + ZL (own pt a)]) /\ (forall e, ~ In e l \/ pt e = PGHOST -> v e = v0 e).
Proof.
  intros off pt v0 l ND H0 HT.
  destruct (foldM_list _ _ (fun pre (s : (Z -> list Z) * Z) => snd s = ZL (own pt pre) /\ (forall e a b, pre = a ++ e :: b -> pt e <> PGHOST -> fst s e = [off + 1 + ZL (own pt a)]) /\ (forall e, ~ In e pre \/ pt e = PGHOST -> fst s e = v0 e))
    (fun (s : (Z -> list Z) * Z) e => if negb (pt e =? PGHOST) then g <- ck32 (off + (snd s + 1)) ;; Ok (zupd (fst s) e [g], snd s + 1) else Ok s) l (v0, 0)) as ((v & c) & E & _ & A & B).
  - split. reflexivity. split. intros e [|] b Q; discriminate. auto.
  - intros pre e suf (v & c) El (I1 & I2 & I3). cbn [fst snd] in *. assert (Ne : ~ In e pre) by (intro; rewrite El in ND; apply NoDup_remove_2 in ND; apply ND, in_or_app; auto).
    assert (LASTS : forall (a b : list Z) y, pre ++ [e] = a ++ y :: b -> (y = e /\ a = pre) \/ (exists b', pre = a ++ y :: b')).
    { intros a b y Q. destruct b as [|z b _] using rev_ind. apply app_inj_tail in Q. destruct Q; subst. auto. right. exists b. rewrite app_comm_cons, app_assoc in Q. apply app_inj_tail in Q. destruct Q; subst. auto. }
    assert (FA : own pt (pre ++ [e]) = own pt pre ++ (if negb (pt e =? PGHOST) then [e] else [])) by (unfold own; rewrite filter_app; cbn [filter]; auto).
    destruct (Z.eqb_spec (pt e) PGHOST) as [G|G]; cbn [negb] in *.
    + eexists. split. reflexivity. cbn [fst snd]. rewrite FA, app_nil_r. split; auto. split.
      * intros y a b Q Py. destruct (LASTS a b y Q) as [(-> & ->)|(b' & Q')]. congruence. apply (I2 y a b'); auto.
      * intros y Hy. apply I3. destruct Hy as [Hy|Hy]; auto. left. intro. apply Hy, in_or_app. auto.
    + assert (LE : ZL (own pt pre) + 1 <= ZL (own pt l)). { rewrite El. unfold own, ZL. rewrite filter_app. cbn [filter]. replace (pt e =? PGHOST) with false by lia. cbn [negb]. rewrite app_length. cbn [length]. lia. }
      assert (0 <= ZL (own pt pre)) by (unfold ZL; lia). unfold ck32. replace ((- 2 ^ 31 <=? _) && _) with true by lia. cbn [bind]. eexists. split. reflexivity. cbn [fst snd]. rewrite FA. split. unfold ZL in *. rewrite app_length. cbn [length]. lia. split.
      * intros y a b Q Py. destruct (LASTS a b y Q) as [(-> & ->)|(b' & Q')]. rewrite zupd_same. f_equal. lia. rewrite zupd_other. apply (I2 y a b'); auto. intros ->. apply Ne. rewrite Q'. apply in_or_app. cbn. auto.
      * intros y Hy. rewrite zupd_other. apply I3. destruct Hy as [Hy|Hy]; auto. left. intro. apply Hy, in_or_app. auto. intros ->. destruct Hy as [Hy|Hy]; auto. apply Hy, in_or_app. cbn. auto.
  - exists v, c. auto.
Qed.
Lemma take_ids : forall (v : Z -> list Z) l g, (forall e, In e l -> fold_left (fun g e => zupd g e (hd 0 (v e))) l g e = hd 0 (v e)) /\ (forall e, ~ In e l -> fold_left (fun g e => zupd g e (hd 0 (v e))) l g e = g e).
Proof.
  intros v. induction l as [|x l IH]; intros g; cbn [fold_left]. split. intros e []. auto. destruct (IH (zupd g x (hd 0 (v x)))) as [A B]. split.
  - intros e He. destruct (in_dec Z.eq_dec e l) as [I|I]. auto. destruct He as [<-|He]; [|contradiction]. rewrite B by auto. apply zupd_same.
  - intros e He. rewrite B by (intro; apply He; cbn; auto). apply zupd_other. intros ->. apply He. cbn. auto.
Qed.

(** ** One kind of entity *)
(** The entities of a kind over the ranks: the ghosts are those in the ghost list, and
    each has its owner among the overlap entities of another rank. *)
Record spread (n k : Z) (all : Z -> list Z) (pt : Z -> Z -> Z) (xs : Z -> xrank) : Prop := {
  sp_nd : forall p, on n p -> NoDup (all p);
  sp_gh : forall p e, on n p -> In e (x_gh (xs p) k) <-> In e (all p) /\ pt p e = PGHOST;
  sp_ov : forall p e, on n p -> In e (x_ov (xs p) k) -> In e (all p) /\ pt p e <> PGHOST;
  sp_sum : psum (fun q => ZL (own (pt q) (all q))) (ranks n) < 2 ^ 31;
  sp_sh : shared n k xs }.
(** How many entities the ranks before [p] own. *)
Definition before_rank (all : Z -> list Z) (pt : Z -> Z -> Z) (p : Z) : Z := psum (fun q => ZL (own (pt q) (all q))) (zrange 0 p).
(** The numbers the ranks' own entities get, one after the other in the order of each
    rank's list; ghosts get that of their owner. *)
Record in_order (n k : Z) (all : Z -> list Z) (pt : Z -> Z -> Z) (xs ys : Z -> xrank) : Prop := {
  io_own : forall p e a b, on n p -> all p = a ++ e :: b -> pt p e <> PGHOST -> x_gid (ys p) e = before_rank all pt p + 1 + ZL (own (pt p) a);
  io_gh : forall p g o, on n p -> In g (x_gh (xs p) k) -> owner_of xs k p g o -> x_gid (ys p) g = x_gid (ys (x_mas (xs p) g)) o }.

Lemma entity_ok : forall N k all pt xs, (2 <= N)%nat -> let n := Z.of_nat N in 0 <= k <= 3 -> adj_history N xs -> spread n k all pt xs ->
  exists ys, (forall lo, protocol n lo (lo + 6) (fun p => MESH_Renumber_EntityGlobalIDs n p k (all p) (pt p) (xs p)) ys) /\ adj_history N ys /\ in_order n k all pt xs ys /\
    forall p, on n p -> x_gh (ys p) = x_gh (xs p) /\ x_ov (ys p) = x_ov (xs p) /\ x_mas (ys p) = x_mas (xs p) /\ x_bnd (ys p) = x_bnd (xs p) /\ forall e, ~ In e (all p) -> x_gid (ys p) e = x_gid (xs p) e.
Proof.
  intros N k all pt xs HN n Hk AH SP. set (c := fun q => ZL (own (pt q) (all q))). assert (HC : forall q, 0 <= c q) by (intros; unfold c, ZL; lia).
  assert (HS : psum c (ranks n) < 2 ^ 31) by apply (sp_sum _ _ _ _ _ SP).
  assert (BT : forall p, on n p -> 0 <= before_rank all pt p /\ before_rank all pt p + ZL (own (pt p) (all p)) < 2 ^ 31).
  { intros p Hp. unfold on in Hp. unfold before_rank. fold c. split. apply psum_nonneg; auto. rewrite <- zranks, (zrange_app 0 p n), psum_app, (zrange_cons p n) in HS by lia. cbn [psum] in HS. assert (0 <= psum c (zrange (p + 1) n)) by (apply psum_nonneg; auto). unfold c in *. lia. }
  set (x0 := fun p => set_val (xs p) (fun _ => [])).
  set (vv := fun p => un (fun _ : Z => @nil Z, 0) (foldM (fun (s : (Z -> list Z) * Z) e => if negb (pt p e =? PGHOST) then g <- ck32 (before_rank all pt p + (snd s + 1)) ;; Ok (zupd (fst s) e [g], snd s + 1) else Ok s) (fun _ => [], 0) (all p))).
  assert (VV : forall p, on n p -> foldM (fun (s : (Z -> list Z) * Z) e => if negb (pt p e =? PGHOST) then g <- ck32 (before_rank all pt p + (snd s + 1)) ;; Ok (zupd (fst s) e [g], snd s + 1) else Ok s) (fun _ => [], 0) (all p) = Ok (vv p) /\
    (forall e a b, all p = a ++ e :: b -> pt p e <> PGHOST -> fst (vv p) e = [before_rank all pt p + 1 + ZL (own (pt p) a)]) /\ (forall e, ~ In e (all p) \/ pt p e = PGHOST -> fst (vv p) e = [])).
  { intros p Hp. destruct (BT p Hp) as (B1 & B2). destruct (new_ids_ok (before_rank all pt p) (pt p) (fun _ => []) (all p)) as (v & cc & E & A & B); auto. apply (sp_nd _ _ _ _ _ SP); auto. unfold vv. rewrite E. cbn [un fst]. auto. }
  set (x1 := fun p => set_val (xs p) (fst (vv p))).
  assert (AH1 : adj_history N x1) by exact AH.
  assert (SH1 : shared n k x1). { destruct (sp_sh _ _ _ _ _ SP) as [S1 S2 S3]. constructor; auto. }
  assert (OWN : forall p e, on n p -> In e (all p) -> pt p e <> PGHOST -> exists a b, all p = a ++ e :: b /\ fst (vv p) e = [before_rank all pt p + 1 + ZL (own (pt p) a)]).
  { intros p e Hp He G. destruct (in_split e (all p) He) as (a & b & E). exists a, b. split; auto. destruct (VV p Hp) as (_ & A & _). apply (A e a b); auto. }
  destruct (update1_ok N (mkAt TINT 1 k) x1 HN AH1) as (res & PR & RS & AR).
  - split; cbn; auto.
  - exact SH1.
  - intros p o Hp Ho. cbn [at_dim] in Ho. destruct (sp_ov _ _ _ _ _ SP p o Hp Ho) as (I & G). destruct (OWN p o Hp I G) as (a & b & _ & E). cbn. unfold x1. cbn [set_val x_val]. rewrite E. cbn. auto.
  - fold n in PR, RS. cbn [at_dim] in RS. exists (fun p => set_ids (res p) (fold_left (fun g e => zupd g e (hd 0 (x_val (res p) e))) (all p) (x_gid (res p)))).
    split; [|split; [|split]].
    + intros lo. unfold MESH_Renumber_EntityGlobalIDs. cbv zeta.
      eapply (protocol_col _ n lo (lo + 6) (fun p => [c p])). lia.
      eapply protocol_lift with (v := fun p => if p =? 0 then map (before_rank all pt) (ranks n) else []).
      { intros p Hp. destruct (p =? 0); auto. apply offsets_ok; auto. lia. }
      eapply (protocol_col _ n (lo + 1) (lo + 6) (fun p => if p =? 0 then map (before_rank all pt) (ranks n) else [])). lia.
      assert (HD : hd [] (map (fun p => if p =? 0 then map (before_rank all pt) (ranks n) else []) (ranks n)) = map (before_rank all pt) (ranks n)).
      { unfold n. rewrite <- zranks. rewrite (zrange_cons 0 (Z.of_nat N)) at 1 by lia. reflexivity. }
      eapply protocol_lift with (v := before_rank all pt). { intros p Hp. rewrite HD. unfold n. pose proof Hp as Hp'. unfold on in Hp'. rewrite rdl_ok by (rewrite map_length, ranks_length; lia). f_equal. rewrite nth_ranks; auto. }
      eapply protocol_ext with (qs := fun p => pbind (MESH_Update1Attribute n p (mkAt TINT 1 k) (x1 p)) (fun x => Ret (set_ids x (fold_left (fun g e => zupd g e (hd 0 (x_val x e))) (all p) (x_gid x))))).
      { intros p Hp. destruct (VV p Hp) as (E & _). cbn [set_val x_val]. rewrite E. unfold lift. destruct (vv p) as [v cc] eqn:Q. unfold x1. rewrite Q. reflexivity. }
      eapply (protocol_bind _ _ n (lo + 1 + 1) (lo + 1 + 1 + 4) (lo + 6) _ res); [lia|apply PR|]. apply protocol_ret.
    + exact AR.
    + constructor.
      * intros p e a b Hp E G. destruct (RS p Hp) as (_ & _ & R3). destruct (VV p Hp) as (_ & A & _). cbn [set_ids x_gid]. assert (I : In e (all p)) by (rewrite E; apply in_or_app; cbn; auto). rewrite (proj1 (take_ids _ _ _)) by auto. rewrite R3. unfold x1. cbn [set_val x_val]. rewrite (A e a b) by auto. reflexivity. intro Q. apply (sp_gh _ _ _ _ _ SP) in Q; auto. tauto.
      * intros p g o Hp Hg (O1 & O2). set (q := x_mas (xs p) g) in *. destruct (sh_ghost _ _ _ (sp_sh _ _ _ _ _ SP) p g Hp Hg) as (Hq & _). fold q in Hq. destruct (RS p Hp) as (_ & R2 & _). destruct (RS q Hq) as (_ & _ & R3). cbn [set_ids x_gid].
        destruct (sp_ov _ _ _ _ _ SP q o Hq O1) as (Io & Go). apply (sp_gh _ _ _ _ _ SP) in Hg as Hg'; auto. destruct Hg' as (Ig & Gg). rewrite !(proj1 (take_ids _ _ _)) by auto.
        destruct (OWN q o Hq Io Go) as (a & b & _ & E). destruct (BT q Hq) as (B1 & B2).
        assert (L : lost_value (mkAt TINT 1 k) (x_val (x1 (x_mas (x1 p) g)) o) = false). { unfold x1. cbn [set_val x_val x_mas]. fold q. rewrite E. cbn. assert (0 <= ZL (own (pt q) a)) by (unfold ZL; lia). lia. }
        rewrite (R2 g o Hg). rewrite L. rewrite (R3 o). reflexivity. intro Q. apply (sp_gh _ _ _ _ _ SP) in Q; auto. tauto. split; auto.
    + intros p Hp. destruct (RS p Hp) as ((E1 & E2 & E3 & E4 & E5) & _ & _). cbn [set_ids x_gh x_ov x_mas x_bnd x_gid]. rewrite E1, E2, E4, E5. split; auto. split; auto. split; auto. split; auto. intros e He. rewrite (proj2 (take_ids _ _ _)) by auto. rewrite E3. auto.
Qed.
