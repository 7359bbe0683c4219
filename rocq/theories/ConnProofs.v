(** Proofs about the connections of the ranks. *)
From Coq Require Import ZArith List Lia Bool Arith ZifyBool ZifyNat Permutation Sorting.Sorted.
From Verif Require Import Base BaseProofs ListSpec SortModel CompareModel CompareProps MeshModel AttModel AttProps TopoModel TopoProofs TopoProofs2 TopoProps TopoProps2 ParModel ParProps CommModel CommProofs CommProofs2 ExchModel ExchProofs ExchProofs2 LabelModel GidModel GidProofs GidProofs2 ModProofs ConnModel.
Import ListNotations.
Open Scope Z_scope.

(** What a rank must bring along. *)
Record conn_ok (n p : Z) (x : crank) (s : pspec) : Prop := mkCO {
  co_nd : NoDup (c_vs x);
  co_rg : forall v, In v (c_vs x) -> c_pt x v <> PINTERIOR -> 0 <= c_gid x v < 2 ^ 31;
  co_di : forall v w, In v (c_vs x) -> In w (c_vs x) -> c_pt x v <> PINTERIOR -> c_pt x w <> PINTERIOR -> c_gid x v = c_gid x w -> v = w;
  co_fi : finv p n s (c_p x) }.
(** The ranks' parts have a vertex in common that neither takes for an interior one. *)
Definition share (x y : crank) : Prop :=
  exists v w, In v (c_vs x) /\ In w (c_vs y) /\ c_pt x v <> PINTERIOR /\ c_pt y w <> PINTERIOR /\ c_gid x v = c_gid y w.
(** The kinds of entities flagged. *)
Definition flagged_kind (nr t : Z) : Prop := t = 0 \/ t = 1 \/ (t = 2 /\ nr <> 0).

Section Conn.
  Variables (N : nat) (junk : Z -> Z -> Z) (x : Z -> crank) (s : Z -> pspec).
  Let n := Z.of_nat N.
  Hypothesis HN : (0 < N)%nat.
  Hypothesis HX : forall p, on n p -> conn_ok n p (x p) (s p).

  Let cand := fun p => conn_verts (x p).
  Let key := fun p v => [c_gid (x p) v].
  Let keyM := fun p v => Ok [c_gid (x p) v] : result (list Z).
  Let ecmp := fun p => compareGlobalID (c_gid (x p)).
  Let info := fun p => [0; ZL (c_vs (x p)); 0; 0; 0; 0; 0; 0; 0; 0].
  Let D := fun k : list Z => exists g, k = [g] /\ 0 <= g < 2 ^ 31.
  Let C := fun u w : list Z => hd 0 u - hd 0 w.
  Let Sm := fun u w : list Z => hd 0 u = hd 0 w.

  Lemma cand_in : forall p v, In v (cand p) <-> In v (c_vs (x p)) /\ c_pt (x p) v <> PINTERIOR.
  Proof using All. intros p v. unfold cand, conn_verts. rewrite filter_In. rewrite negb_true_iff, Z.eqb_neq. tauto. Qed.
  Lemma HC : preorder3 D C Sm.
  Proof using All. unfold preorder3, C, Sm. split; [|split]; intros; lia. Qed.
  Lemma HD : forall p e, on n p -> In e (cand p) -> D (key p e) /\ Z.of_nat (length (key p e)) <= c_wd conn_cfg.
  Proof using All. intros p e Hp He. apply cand_in in He. split. eexists. split; [reflexivity|]. apply (co_rg _ _ _ _ (HX p Hp)); tauto. cbn. lia. Qed.
  Lemma Hk : forall p e, on n p -> In e (cand p) -> keyM p e = Ok (key p e).
  Proof using All. auto. Qed.
  Lemma He : forall p e e', on n p -> In e (cand p) -> In e' (cand p) -> ecmp p e e' = Ok (C (key p e) (key p e')).
  Proof using All.
    intros p e e' Hp H H'. apply cand_in in H. apply cand_in in H'. pose proof (co_rg _ _ _ _ (HX p Hp) e (proj1 H) (proj2 H)). pose proof (co_rg _ _ _ _ (HX p Hp) e' (proj1 H') (proj2 H')).
    unfold ecmp, compareGlobalID, C, key. cbn [hd]. unfold ck32. replace ((- 2 ^ 31 <=? _) && _) with true by lia. auto.
  Qed.
  Lemma Hkc : forall k k' j, D k -> D k' -> Z.of_nat (length (k' ++ j)) = c_wd conn_cfg -> int_cmp k (k' ++ j) = Ok (C k k').
  Proof using All.
    intros k k' j (g & -> & Rg) (g' & -> & Rg') L. unfold int_cmp. change (rdl [g] 0) with (Ok g). change (rdl ([g'] ++ j) 0) with (Ok g'). cbn [bind]. unfold C. cbn [hd]. unfold compareINT, ck32. replace ((- 2 ^ 31 <=? _) && _) with true by lia. auto.
  Qed.
  Lemma Hdist : forall p e e', on n p -> In e (cand p) -> In e' (cand p) -> Sm (key p e) (key p e') -> e = e'.
  Proof using All. intros p e e' Hp H H' Q. apply cand_in in H. apply cand_in in H'. unfold Sm, key in Q. cbn [hd] in Q. apply (co_di _ _ _ _ (HX p Hp)); tauto. Qed.
  Lemma Hnd : forall p, on n p -> NoDup (cand p).
  Proof using All. intros p Hp. apply NoDup_filter. apply (co_nd _ _ _ _ (HX p Hp)). Qed.
  Lemma Hinfo : forall p, on n p -> length (info p) = 10%nat /\ nth (Z.to_nat (c_num conn_cfg)) (info p) 0 = ZL (c_vs (x p)).
  Proof using All. intros p Hp. split; reflexivity. Qed.
  Lemma Hcfg : 1 <= c_wd conn_cfg /\ 0 <= c_num conn_cfg < 9 /\ 0 <= c_bnd conn_cfg < 9 /\ c_num conn_cfg <> c_bnd conn_cfg /\ c_min conn_cfg <= 1.
  Proof using All. cbn. lia. Qed.

  Let id0 := fun _ _ : Z => 0.
  Let es0 := fun _ : Z => mkE (fun _ => 0) (fun _ => 0) (fun _ => 0) (fun _ => false).
  Let all := fun p => c_vs (x p).
  Let B := bl cand ecmp.
  Let GI := gi1 N conn_cfg info cand ecmp.
  Let MX := mx N conn_cfg info cand ecmp.
  Let RV := recv N conn_cfg junk info cand keyM ecmp.

  Lemma B_ok : forall p, on n p -> pqsort (ecmp p) (cand p) = Ok (B p).
  Proof using All. intros p Hp. apply (bl_ok N conn_cfg junk info id0 all cand key keyM ecmp es0 D C Sm HN HC HD Hk He Hdist Hnd Hinfo p Hp). Qed.
  Lemma B_in : forall p v, on n p -> In v (B p) <-> In v (c_vs (x p)) /\ c_pt (x p) v <> PINTERIOR.
  Proof using All. intros p v Hp. rewrite <- cand_in. apply (bl_in N conn_cfg junk info id0 all cand key keyM ecmp es0 D C Sm HN HC HD Hk He Hdist Hnd Hinfo p v Hp). Qed.
  Lemma GI_at : forall j, on n j -> rdl GI (10 * j + c_bnd conn_cfg) = Ok (ZL (B j)).
  Proof using All. intros j Hj. apply (gi1_bnd N conn_cfg junk info id0 all cand key keyM ecmp es0 D C Sm HN HD Hk He Hdist Hnd Hinfo Hcfg j Hj). Qed.

  (** The search finds out whether rank [j] has a vertex with this ID. *)
  Definition has (j g : Z) : Prop := exists w, In w (c_vs (x j)) /\ c_pt (x j) w <> PINTERIOR /\ c_gid (x j) w = g.
  Lemma found : forall j g, on n j -> 0 <= g < 2 ^ 31 -> exists r, ksearch (Z.to_nat (ZL (B j))) (int_cmp [g]) RV (MX * j) (c_wd conn_cfg) 0 (ZL (B j)) = Ok r /\ (has j g <-> r <> None).
  Proof using All.
    intros j g Hj Hg. assert (Dg : D [g]) by (exists g; auto).
    destruct (search_rank N conn_cfg junk info id0 all cand key keyM int_cmp ecmp es0 D C Sm HN HC HD Hk He Hkc Hdist Hnd Hinfo Hcfg j [g] Hj Dg) as (r & E & H).
    exists r. split. { rewrite <- E. unfold MX, RV, nb, B. f_equal. change (c_wd conn_cfg) with 1. lia. }
    destruct r as [i|].
    - destruct H as (Hi & S1). split; intros _. discriminate. exists (at_ cand ecmp j i).
      pose proof (at_in N conn_cfg junk info id0 all cand key keyM ecmp es0 D C Sm HN HD Hk He Hdist Hnd Hinfo j i Hi) as I. apply B_in in I; auto. unfold Sm, key in S1. cbn [hd] in S1. split. apply I. split. apply I. auto.
    - split; [|intros X; elim X; auto]. intros (w & W1 & W2 & W3). exfalso. assert (I : In w (B j)) by (apply B_in; auto).
      destruct (at_ex N conn_cfg junk info id0 all cand key keyM ecmp es0 D C Sm HN HD Hk He Hdist Hnd Hinfo j w I) as (i & Hi & Ei). apply (H i Hi). unfold Sm, key. rewrite Ei. cbn [hd]. auto.
  Qed.

  (** ** Flags *)
  Definition grown (p : Z) (s0 s1 : pspec) (P : Z -> Prop) : Prop :=
    (forall q t, so s1 q t = so s0 q t) /\ forall q t, 0 <= t <= 3 -> (sg s1 q t = true <-> sg s0 q t = true \/ (q <> p /\ flagged_kind (c_nr (x p)) t /\ P q)).

  Lemma one_rank : forall p g j m s0, on n p -> on n j -> 0 <= g < 2 ^ 31 -> finv p n s0 m ->
    exists m' s1, neighbour1 MX p (c_nr (x p)) GI RV g m j = Ok m' /\ finv p n s1 m' /\ precv m' = precv m /\ grown p s0 s1 (fun q => q = j /\ has j g).
  Proof using All.
    intros p g j m s0 Hp Hj Hg I. unfold neighbour1. destruct (Z.eqb_spec j p) as [E|E].
    { exists m, s0. split; auto. split; auto. split; auto. split; auto. intros q t Ht. split; auto. intros [X|(X & _ & X1 & _)]; auto. lia. }
    rewrite GI_at by auto. cbn [bind]. destruct (found j g Hj Hg) as (r & Er & Hr). rewrite Er. cbn [bind]. destruct r as [i|].
    - assert (Hh : has j g) by (apply Hr; discriminate). unfold on in Hj, Hp.
      destruct (flagG_spec p n s0 m j 0 I Hj ltac:(lia)) as (m1 & E1 & R1 & I1). rewrite E1. cbn [bind].
      destruct (flagG_spec p n _ m1 j 1 I1 Hj ltac:(lia)) as (m2 & E2 & R2 & I2). rewrite E2. cbn [bind].
      destruct (Z.eqb_spec (c_nr (x p)) 0) as [Z0|Z0]; cbn [negb].
      + eexists. eexists. split; [reflexivity|]. split; [exact I2|]. split; [congruence|]. split; [reflexivity|]. intros q t Ht. cbn [pstep sg]. unfold covers, flagged_kind.
        rewrite !orb_true_iff, !andb_true_iff, !negb_true_iff, !orb_true_iff, !Z.eqb_eq, !Z.eqb_neq. split.
        * intros [[X|X]|X]; auto; right; repeat split; try tauto; lia.
        * intros [X|(X & [K|[K|[K K']]] & -> & _)]; auto.
      + destruct (flagG_spec p n _ m2 j 2 I2 Hj ltac:(lia)) as (m3 & E3 & R3 & I3). rewrite E3.
        eexists. eexists. split; [reflexivity|]. split; [exact I3|]. split; [congruence|]. split; [reflexivity|]. intros q t Ht. cbn [pstep sg]. unfold covers, flagged_kind.
        rewrite !orb_true_iff, !andb_true_iff, !negb_true_iff, !orb_true_iff, !Z.eqb_eq, !Z.eqb_neq. split.
        * intros [[[X|X]|X]|X]; auto; right; repeat split; try tauto; lia.
        * intros [X|(X & [K|[K|[K K']]] & -> & _)]; auto 8.
    - exists m, s0. split; auto. split; auto. split; auto. split; auto. intros q t Ht. split; auto. intros [X|(_ & _ & _ & X)]; auto. apply Hr in X. elim X; auto.
  Qed.
  Lemma grown_trans : forall p s0 s1 s2 P Q R, grown p s0 s1 P -> grown p s1 s2 Q -> (forall q, R q <-> P q \/ Q q) -> grown p s0 s2 R.
  Proof using All.
    intros p s0 s1 s2 P Q R (A1 & A2) (B1 & B2) H. split. intros. rewrite B1. auto. intros q t Ht. rewrite (B2 q t Ht), (A2 q t Ht), H. tauto.
  Qed.
  Lemma all_ranks : forall p g js m s0, on n p -> (forall j, In j js -> on n j) -> 0 <= g < 2 ^ 31 -> finv p n s0 m ->
    exists m' s1, foldM (neighbour1 MX p (c_nr (x p)) GI RV g) m js = Ok m' /\ finv p n s1 m' /\ precv m' = precv m /\ grown p s0 s1 (fun q => In q js /\ has q g).
  Proof using All.
    intros p g js. induction js as [|j js IH]; intros m s0 Hp Hjs Hg I.
    - exists m, s0. split; auto. split; auto. split; auto. split; auto. intros q t Ht. cbn. tauto.
    - cbn [foldM]. destruct (one_rank p g j m s0 Hp (Hjs j (or_introl eq_refl)) Hg I) as (m1 & s1 & E1 & I1 & R1 & G1). rewrite E1. cbn [bind].
      destruct (IH m1 s1 Hp (fun k H => Hjs k (or_intror H)) Hg I1) as (m2 & s2 & E2 & I2 & R2 & G2). exists m2, s2. split; auto. split; auto. split. congruence.
      eapply grown_trans; [exact G1|exact G2|]. intros q. cbn [In]. split. intros ([->|X] & X1); auto. intros [(-> & X)|(X & X1)]; auto.
  Qed.
  Lemma all_verts : forall p, on n p -> exists m' s1, neighbours MX n p (c_nr (x p)) GI RV (c_gid (x p)) (B p) (c_p (x p)) = Ok m' /\ finv p n s1 m' /\ precv m' = precv (c_p (x p)) /\
    grown p (s p) s1 (fun q => on n q /\ share (x p) (x q)).
  Proof using All.
    intros p Hp. unfold neighbours.
    destruct (foldM_up _ (fun k m => exists s1, finv p n s1 m /\ precv m = precv (c_p (x p)) /\ grown p (s p) s1 (fun q => on n q /\ exists i, 0 <= i < k /\ has q (c_gid (x p) (nth (Z.to_nat i) (B p) 0))))
      (fun m i => v <- lent (B p) i ;; foldM (neighbour1 MX p (c_nr (x p)) GI RV (c_gid (x p) v)) m (rev (zrange 0 n))) 0 (ZL (B p)) (c_p (x p))) as (m & E & s1 & H1 & H2 & H3).
    - unfold ZL. lia.
    - exists (s p). split. apply (co_fi _ _ _ _ (HX p Hp)). split; auto. split; auto. intros q t Ht. split; auto. intros [X|(_ & _ & _ & i & X & _)]; auto. lia.
    - intros k m Hkk (s1 & H1 & H2 & H3). assert (EL : lent (B p) k = Ok (nth (Z.to_nat k) (B p) 0)). { apply lent_ok. lia. }
      rewrite EL. cbn [bind]. assert (I : In (nth (Z.to_nat k) (B p) 0) (B p)) by (apply nth_In; unfold ZL in Hkk; lia). apply B_in in I; auto.
      destruct (all_ranks p (c_gid (x p) (nth (Z.to_nat k) (B p) 0)) (rev (zrange 0 n)) m s1 Hp) as (m2 & s2 & E2 & I2 & R2 & G2); auto.
      + intros j Hj. apply in_rev in Hj. apply zrange_In in Hj. exact Hj.
      + apply (co_rg _ _ _ _ (HX p Hp)); tauto.
      + exists m2. split; auto. exists s2. split; auto. split. congruence. eapply grown_trans; [exact H3|exact G2|]. intros q. cbv beta. rewrite <- in_rev, zrange_In. unfold on. split.
        * intros (Q & i & Hi & X). destruct (Z.eq_dec i k) as [->|]. right. auto. left. split; auto. exists i. split; auto. lia.
        * intros [(Q & i & Hi & X)|(Q & X)]; split; auto. exists i. split; auto. lia. exists k. split; auto. lia.
    - exists m, s1. split; auto. split; auto. split; auto. destruct H3 as (G1 & G2). split; auto. intros q t Ht. rewrite (G2 q t Ht).
      assert (X : (exists i, 0 <= i < ZL (B p) /\ has q (c_gid (x p) (nth (Z.to_nat i) (B p) 0))) <-> share (x p) (x q)); [|rewrite X; tauto]. split.
      + intros (i & Hi & w & W1 & W2 & W3). assert (I : In (nth (Z.to_nat i) (B p) 0) (B p)) by (apply nth_In; unfold ZL in Hi; lia). apply B_in in I; auto. exists (nth (Z.to_nat i) (B p) 0), w. destruct I. auto 8.
      + intros (v & w & V1 & W1 & V2 & W2 & Q). assert (I : In v (B p)) by (apply B_in; auto). destruct (In_nth _ _ 0 I) as (i & Hi & Ei). exists (Z.of_nat i). split. unfold ZL. lia. rewrite Nat2Z.id, Ei. exists w. auto.
  Qed.

  Lemma connection : exists y, (forall lo, protocol n lo (lo + 2) (fun p => MESH_BuildConnection (junk p) n p (x p)) y) /\
    forall p, on n p -> exists s1, y p = set_p (x p) (c_p (y p)) /\ finv p n s1 (c_p (y p)) /\ precv (c_p (y p)) = precv (c_p (x p)) /\ grown p (s p) s1 (fun q => on n q /\ share (x p) (x q)).
  Proof using All.
    exists (fun p => set_p (x p) (un (c_p (x p)) (neighbours MX n p (c_nr (x p)) GI RV (c_gid (x p)) (B p) (c_p (x p))))). split.
    - intros lo. unfold MESH_BuildConnection.
      apply protocol_lift with (v := B). { intros p Hp. apply (B_ok p Hp). }
      apply protocol_lift with (v := inf1 conn_cfg info cand ecmp). { intros p Hp. apply (inf1_ok N conn_cfg junk info id0 all cand key keyM ecmp es0 D C Sm HN HD Hk He Hdist Hnd Hinfo Hcfg p Hp). }
      apply protocol_col. lia. cbv zeta. change (concat (map (inf1 conn_cfg info cand ecmp) (ranks n))) with GI.
      apply protocol_lift with (v := fun _ => MX). { intros p Hp. apply (mx_ok N conn_cfg junk info id0 all cand key keyM ecmp es0 D C Sm HN HD Hk He Hdist Hnd Hinfo Hcfg). }
      apply protocol_lift with (v := lst N conn_cfg info cand keyM ecmp). { intros p Hp. apply (lst_ok N conn_cfg junk info id0 all cand key keyM ecmp es0 D C Sm HN HC HD Hk He Hdist Hnd Hinfo Hcfg p Hp). }
      eapply protocol_col with (x := sent N conn_cfg junk info cand keyM ecmp). lia. change (concat (map (sent N conn_cfg junk info cand keyM ecmp) (ranks n))) with RV.
      apply protocol_lift with (v := fun p => un (c_p (x p)) (neighbours MX n p (c_nr (x p)) GI RV (c_gid (x p)) (B p) (c_p (x p)))). { intros p Hp. destruct (all_verts p Hp) as (m & s1 & E & _). rewrite E. reflexivity. }
      apply protocol_ret.
    - intros p Hp. destruct (all_verts p Hp) as (m & s1 & E & H). exists s1. rewrite E. cbn [un]. split. reflexivity. exact H.
  Qed.
End Conn.
