(** The lists of ghosts and overlap of the ranks match. *)
From Coq Require Import ZArith Bool String List Lia Arith ZifyBool ZifyNat Permutation Sorting.Sorted.
From Verif Require Import Base BaseProofs ListSpec SortModel CompareModel MeshModel AttModel AttProps TopoModel TopoSpec TopoProps ParModel ParProps CommModel CommProofs CommProofs2 ExchModel ExchProofs DistAdj ExchProofs4 ExchProofs7 GidModel GidProofs RenumProps.
From Verif Require Import FileModel FileSpec FileProofs4 SendModel SendSpec PartModel PartSpec PartProofs GhostModel GhostSpec PartProofs2 GhostProps DistModel DistSpec DistProofs DistProofs2.
Import ListNotations.
Open Scope Z_scope.

(** ** Lists *)
Lemma sort_lists_out : forall gid l r k, sort_lists gid l = Ok r -> ~ 0 <= k <= 3 -> r k = l k.
Proof.
  intros gid l r k. unfold sort_lists. cbn [foldM]. intros E Hk.
  repeat match type of E with context [pqsort ?c ?x] => destruct (pqsort c x); cbn [bind] in E; try discriminate end. inversion E. unfold zupd. replace (k =? 3) with false by lia. replace (k =? 2) with false by lia. replace (k =? 1) with false by lia. replace (k =? 0) with false by lia. reflexivity.
Qed.
Lemma lists_ok : forall m dim, (dim = 2 \/ dim = 3) -> (dim = 2 -> skind m 3 = []) -> (forall d p, In p (skind m d) -> 0 <= pi_gid (sm_p m p) < 2 ^ 31) -> (forall d p q, In p (skind m d) -> In q (skind m d) -> pi_gid (sm_p m p) = pi_gid (sm_p m q) -> p = q) -> (forall d, NoDup (skind m d)) ->
  exists gh ov, MESH_Build_GhostLists m dim = Ok (gh, ov) /\ forall d,
    (forall q, In q (gh d) <-> In q (skind m d) /\ pi_ptype (sm_p m q) = PGHOST) /\ StronglySorted Z.lt (map (fun p => pi_gid (sm_p m p)) (gh d)) /\
    (forall q, In q (ov d) <-> In q (skind m d) /\ pi_ptype (sm_p m q) = POVERLAP) /\ StronglySorted Z.lt (map (fun p => pi_gid (sm_p m p)) (ov d)).
Proof.
  intros m dim C C3 R J ND. set (g := fun p => pi_gid (sm_p m p)).
  assert (X : forall t, exists r, sort_lists g (collect m dim t) = Ok r /\ forall d, (forall q, In q (r d) <-> In q (skind m d) /\ pi_ptype (sm_p m q) = t) /\ StronglySorted Z.lt (map g (r d))).
  { intro t. assert (IC : forall d q, In q (collect m dim t d) <-> In q (skind m d) /\ pi_ptype (sm_p m q) = t).
    { intros d q. unfold collect. change (ents m d) with (skind m d). destruct (Z.leb_spec d dim) as [L|L].
      - rewrite filter_In, Z.eqb_eq. tauto.
      - split; [intros []|]. intros [Hq _]. exfalso. destruct (kin _ _ _ Hq) as [-> | [-> | [-> | ->]]]; try lia. destruct C as [->| ->]; [|lia]. rewrite C3 in Hq by auto. destruct Hq. }
    assert (NC : forall d, NoDup (collect m dim t d)) by (intro d; unfold collect; change (ents m d) with (skind m d); destruct (d <=? dim); [apply NoDup_filter; auto|constructor]).
    destruct (sort_lists_ok g (collect m dim t)) as (r & E & H). { intros k e _ He. apply IC in He. apply (R k). tauto. }
    exists r. split; auto. intro d. assert (D : 0 <= d <= 3 \/ ~ 0 <= d <= 3) by lia. destruct D as [D|D].
    - destruct (H d D) as [HP HS]. split; [intro q; rewrite <- IC; split; apply Permutation_in; auto; symmetry; auto|]. apply sorted_lt; auto. apply map_nd; [eapply Permutation_NoDup; [symmetry; exact HP|auto]|].
      intros x y Hx Hy. apply (Permutation_in _ HP) in Hx, Hy. apply IC in Hx, Hy. apply (J d); tauto.
    - rewrite (sort_lists_out g _ r d E D). split; [apply IC|]. assert (Z0 : collect m dim t d = []); [|rewrite Z0; constructor]. destruct (collect m dim t d) as [|q l] eqn:Ec; auto. exfalso. assert (Q : In q (collect m dim t d)) by (rewrite Ec; left; auto). apply IC in Q. destruct Q as [Q _]. apply kin in Q. lia. }
  unfold MESH_Build_GhostLists. replace ((dim =? 3) || (dim =? 2)) with true by lia. fold g. destruct (X PGHOST) as (gh & E1 & H1). destruct (X POVERLAP) as (ov & E2 & H2). rewrite E1. cbn [bind]. rewrite E2. cbn [bind]. exists gh, ov. split; auto. intro d. destruct (H1 d), (H2 d). auto.
Qed.

(** ** All ranks *)
Section Ranks.
Variables (s : smesh) (a : amesh) (part : list Z) (num ring : Z) (s' : smesh) (ms : list smesh) (O : nat -> ptr -> ptr).
Hypothesis D : distributable s a part num.
Notation n := (Z.to_nat ring).
Hypothesis LM : Z.of_nat (length ms) = num.
Hypothesis ID : ids_ok s s'.
Hypothesis HM : forall k m, nth_error ms k = Some m -> (exists a', is_halo s a part (Z.of_nat k) n s' m a' (O k)) /\ flagged s a part (Z.of_nat k) m (O k) /\ typed s a part (Z.of_nat k) n m (O k).

Definition M (p : Z) : smesh := nth (Z.to_nat p) ms empty_smesh.
Definition Oz (p : Z) : ptr -> ptr := O (Z.to_nat p).
Lemma at_rank : forall p, CommModel.on num p -> (exists a', is_halo s a part p n s' (M p) a' (Oz p)) /\ flagged s a part p (M p) (Oz p) /\ typed s a part p n (M p) (Oz p).
Proof using LM HM.
  intros p Hp. unfold CommModel.on in Hp. assert (E : nth_error ms (Z.to_nat p) = Some (M p)) by (apply nth_error_nth'; lia). apply HM in E. rewrite Z2Nat.id in E by lia. exact E.
Qed.
Lemma rank_in : forall p d q, CommModel.on num p -> In q (skind (M p) d) -> In (Oz p q) (skind s d) /\ halo s a part p n (Oz p q).
Proof using LM HM. intros p d q Hp Hq. destruct (at_rank p Hp) as ((a' & I) & _). eapply sub_in; eauto. Qed.
Lemma rank_gid : forall p d q, CommModel.on num p -> In q (skind (M p) d) -> pi_gid (sm_p (M p) q) = pi_gid (sm_p s' (Oz p q)) /\ 1 <= pi_gid (sm_p (M p) q) < 2 ^ 31.
Proof using LM HM ID. intros p d q Hp Hq. destruct (at_rank p Hp) as ((a' & I) & _). destruct (ho_gid _ _ _ _ _ _ _ _ _ I _ _ Hq) as [E _]. rewrite E. split; auto. apply (ID d). eapply rank_in; eauto. Qed.
(** Global IDs tell the copies of an entity. *)
Lemma same_gid : forall p j d q q', CommModel.on num p -> CommModel.on num j -> In q (skind (M p) d) -> In q' (skind (M j) d) -> (pi_gid (sm_p (M p) q) = pi_gid (sm_p (M j) q') <-> Oz p q = Oz j q').
Proof using LM HM ID.
  intros p j d q q' Hp Hj Hq Hq'. destruct (rank_gid p d q Hp Hq) as [E1 _]. destruct (rank_gid j d q' Hj Hq') as [E2 _]. rewrite E1, E2. split; [|intro E; rewrite E; auto].
  apply (ID d); [apply (rank_in p d q Hp Hq)|apply (rank_in j d q' Hj Hq')].
Qed.
Lemma rank_inj : forall p d q q', CommModel.on num p -> In q (skind (M p) d) -> In q' (skind (M p) d) -> pi_gid (sm_p (M p) q) = pi_gid (sm_p (M p) q') -> q = q'.
Proof using LM HM ID. intros p d q q' Hp Hq Hq' E. apply (same_gid p p d) in E; auto. destruct (at_rank p Hp) as ((a' & I) & _). eapply ho_inj; eauto. Qed.
Lemma rank_master : forall p d q, CommModel.on num p -> In q (skind (M p) d) -> CommModel.on num (pi_master (sm_p (M p) q)) /\ owner s a part (Oz p q) (pi_master (sm_p (M p) q)).
Proof using D LM HM. intros p d q Hp Hq. destruct (at_rank p Hp) as ((a' & I) & _). split; [eapply master_num; eauto|eapply ho_master; eauto]. Qed.
Lemma halo_dec' : forall d g k, In g (skind s d) -> (exists j, j <> k /\ halo s a part j n g) \/ (forall j, j <> k -> ~ halo s a part j n g).
Proof using D LM HM.
  intros d g k Hg. apply (halo_dec s a part num ring D s' (combine ms (map O (seq 0 (length ms)))) d); auto.
  - intros i sub l2g E. assert (X : nth_error ms i = Some sub /\ l2g = O i).
    { assert (Q : forall (l : list smesh) b i sub l2g, nth_error (combine l (map O (seq b (length l)))) i = Some (sub, l2g) -> nth_error l i = Some sub /\ l2g = O (b + i)%nat).
      { induction l as [|x l IH]; intros b j z w X; [destruct j; discriminate X|]. cbn [length seq map combine] in X. destruct j as [|j]; [cbn in X; inversion X; subst; rewrite Nat.add_0_r; auto|]. cbn [nth_error] in *. apply IH in X. rewrite Nat.add_succ_r. exact X. }
      apply (Q ms 0%nat). exact E. }
    destruct X as [X ->]. apply HM in X. tauto.
  - rewrite combine_length, map_length, seq_length. lia.
Qed.
Lemma rank_ghost : forall p d q, CommModel.on num p -> In q (skind (M p) d) -> (pi_ptype (sm_p (M p) q) = PGHOST <-> pi_master (sm_p (M p) q) <> p).
Proof using D LM HM.
  intros p d q Hp Hq. destruct (at_rank p Hp) as (_ & _ & T). destruct (T d q Hq) as (T1 & T2 & T3). destruct (rank_in p d q Hp Hq) as [Kq _]. split; [|exact T1]. intros E N. destruct (halo_dec' d (Oz p q) p Kq) as [X|X]; [specialize (T2 N X)|specialize (T3 N X)]; unfold PGHOST in E; lia.
Qed.
Lemma rank_overlap : forall p d q, CommModel.on num p -> In q (skind (M p) d) ->
  (pi_ptype (sm_p (M p) q) = POVERLAP <-> pi_master (sm_p (M p) q) = p /\ exists j q', CommModel.on num j /\ j <> p /\ In q' (skind (M j) d) /\ pi_gid (sm_p (M j) q') = pi_gid (sm_p (M p) q)).
Proof using D LM HM ID.
  intros p d q Hp Hq. destruct (at_rank p Hp) as (_ & _ & T). destruct (T d q Hq) as (T1 & T2 & T3). destruct (rank_in p d q Hp Hq) as [Kq _].
  assert (EQ : (exists j q', CommModel.on num j /\ j <> p /\ In q' (skind (M j) d) /\ pi_gid (sm_p (M j) q') = pi_gid (sm_p (M p) q)) <-> exists j, j <> p /\ halo s a part j n (Oz p q)).
  { split.
    - intros (j & q' & Hj & Nj & Hq' & E). apply (same_gid j p d) in E; auto. exists j. split; auto. rewrite <- E. apply (rank_in j d q' Hj Hq').
    - intros (j & Nj & Hh). assert (Hj : CommModel.on num j) by (eapply halo_num; eauto). destruct (at_rank j Hj) as ((a' & I) & _). destruct (proj1 (ho_onto _ _ _ _ _ _ _ _ _ I d (Oz p q)) (conj Kq Hh)) as (q' & Hq' & E). exists j, q'. split; auto. split; auto. split; auto. apply (same_gid j p d); auto. }
  rewrite EQ. split; [|intros [N X]; auto]. intro E. destruct (Z.eq_dec (pi_master (sm_p (M p) q)) p) as [N|N]; [|specialize (T1 N); unfold POVERLAP in E; lia]. split; auto. destruct (halo_dec' d (Oz p q) p Kq) as [X|X]; auto. specialize (T3 N X). unfold POVERLAP in E; lia.
Qed.
(** The copy of the master. *)
Lemma rank_owner : forall p d q, CommModel.on num p -> In q (skind (M p) d) -> exists q', In q' (skind (M (pi_master (sm_p (M p) q))) d) /\ pi_gid (sm_p (M (pi_master (sm_p (M p) q))) q') = pi_gid (sm_p (M p) q) /\ pi_master (sm_p (M (pi_master (sm_p (M p) q))) q') = pi_master (sm_p (M p) q).
Proof using D LM HM ID.
  intros p d q Hp Hq. destruct (rank_master p d q Hp Hq) as [Hm OW]. set (m := pi_master (sm_p (M p) q)) in *. destruct (rank_in p d q Hp Hq) as [Kq _]. destruct (at_rank m Hm) as ((a' & I) & _).
  assert (Hh : halo s a part m n (Oz p q)) by (apply (GhostProofs2.halo_mono s a part m 0); [lia|]; apply GhostProofs2.halo_0; [apply (di_mesh _ _ _ _ D)|apply OW]).
  destruct (proj1 (ho_onto _ _ _ _ _ _ _ _ _ I d (Oz p q)) (conj Kq Hh)) as (q' & Hq' & E). exists q'. split; auto. split; [apply (same_gid m p d); auto|]. pose proof (ho_master _ _ _ _ _ _ _ _ _ I _ _ Hq') as OW2. rewrite E in OW2. eapply PartProofs2.owner_one; eauto.
Qed.
Lemma rank_dim : (celldim s = 2 \/ celldim s = 3) /\ forall p, CommModel.on num p -> celldim s = 2 -> skind (M p) 3 = [].
Proof using LM HM.
  split; [unfold celldim; destruct (skind s 3); auto|]. intros p Hp C. destruct (skind (M p) 3) as [|q l] eqn:E; auto. exfalso. assert (Hq : In q (skind (M p) 3)) by (rewrite E; left; auto). apply rank_in in Hq; auto. destruct Hq as [Hq _]. unfold celldim in C. destruct (skind s 3); [destruct Hq|discriminate C].
Qed.

(** What rank [p] has after MESH_Set_Prtn. *)
Record started (val : ptr -> list Z) (p : Z) (x : xrank) : Prop := mkStarted {
  st_p : x_p x = MESH_Set_Prtn pmesh_new p num;
  st_cur : x_cur x = 0;
  st_gid : x_gid x = fun q => pi_gid (sm_p (M p) q);
  st_mas : x_mas x = fun q => pi_master (sm_p (M p) q);
  st_bnd : x_bnd x = fun q => pi_bdry (sm_p (M p) q);
  st_val : x_val x = val;
  st_gh : forall d q, In q (x_gh x d) <-> In q (skind (M p) d) /\ pi_master (sm_p (M p) q) <> p;
  st_gs : forall d, StronglySorted Z.lt (map (x_gid x) (x_gh x d));
  st_ov : forall d q, In q (x_ov x d) <-> In q (skind (M p) d) /\ pi_master (sm_p (M p) q) = p /\ exists j q', CommModel.on num j /\ j <> p /\ In q' (skind (M j) d) /\ pi_gid (sm_p (M j) q') = pi_gid (sm_p (M p) q);
  st_os : forall d, StronglySorted Z.lt (map (x_gid x) (x_ov x d)) }.
Record kept_started (val : ptr -> list Z) (p : Z) (x : xrank) : Prop := mkKept {
  ks_gid : x_gid x = fun q => pi_gid (sm_p (M p) q);
  ks_mas : x_mas x = fun q => pi_master (sm_p (M p) q);
  ks_bnd : x_bnd x = fun q => pi_bdry (sm_p (M p) q);
  ks_val : x_val x = val;
  ks_gh : forall d q, In q (x_gh x d) <-> In q (skind (M p) d) /\ pi_master (sm_p (M p) q) <> p;
  ks_gs : forall d, StronglySorted Z.lt (map (x_gid x) (x_gh x d));
  ks_ov : forall d q, In q (x_ov x d) <-> In q (skind (M p) d) /\ pi_master (sm_p (M p) q) = p /\ exists j q', CommModel.on num j /\ j <> p /\ In q' (skind (M j) d) /\ pi_gid (sm_p (M j) q') = pi_gid (sm_p (M p) q);
  ks_os : forall d, StronglySorted Z.lt (map (x_gid x) (x_ov x d)) }.
Lemma begin_ok : forall val p, CommModel.on num p -> exists x, begin_rank num p (celldim s) val (M p) = Ok x /\ started val p x.
Proof using D LM HM ID.
  intros val p Hp. destruct rank_dim as [C1 C2]. destruct (lists_ok (M p) (celldim s)) as (gh & ov & E & L); auto.
  - intros d q Hq. pose proof (proj2 (rank_gid p d q Hp Hq)). lia.
  - intros d q q'. apply rank_inj. auto.
  - destruct (at_rank p Hp) as ((a' & I) & _). apply (ho_nd _ _ _ _ _ _ _ _ _ I).
  - unfold begin_rank. rewrite E. cbn [bind]. eexists. split; [reflexivity|]. constructor; auto; cbn [x_gh x_ov x_gid]; try (intro d; apply L).
    + intros d q. destruct (L d) as (L1 & _). rewrite L1. split; intros [X Y]; split; auto; apply (rank_ghost p d q Hp X); auto.
    + intros d q. destruct (L d) as (_ & _ & L1 & _). rewrite L1. split; intros [X Y]; split; auto; apply (rank_overlap p d q Hp X); auto.
Qed.
Lemma all_begin : forall val, exists xs, forall p, CommModel.on num p -> begin_rank num p (celldim s) (val p) (M p) = Ok (xs p) /\ started (val p) p (xs p).
Proof using D LM HM ID.
  intro val. exists (fun p => match begin_rank num p (celldim s) (val p) (M p) with Ok x => x | _ => mkX pmesh_new 0 (fun _ => []) (fun _ => []) (fun _ => 0) (fun _ => 0) (fun _ => false) (fun _ => []) end).
  intros p Hp. destruct (begin_ok (val p) p Hp) as (x & E & S). rewrite E. auto.
Qed.
Lemma finish_ok : forall val, exists ys, (forall lo, protocol num lo (lo + 2) (fun p => finish_rank num p (celldim s) (val p) (M p)) ys) /\ adj_history (Z.to_nat num) ys /\
  (forall p, CommModel.on num p -> kept_started (val p) p (ys p)) /\
  (forall p q k, CommModel.on num p -> CommModel.on num q -> 0 <= k <= 3 -> exists b : bool, MESH_Has_Ghosts_From_Prtn (x_p (ys p)) q k = Ok (Z.b2z b) /\ MESH_Has_Overlaps_On_Prtn (x_p (ys q)) p k = Ok (Z.b2z b) /\
     (b = true <-> q <> p /\ exists g, In g (skind (M p) k) /\ pi_master (sm_p (M p) g) = q)).
Proof using D LM HM ID.
  intro val. destruct (all_begin val) as (xs & HX). pose proof (di_num _ _ _ _ D) as HN. assert (EN : Z.of_nat (Z.to_nat num) = num) by lia.
  assert (GK : Forall (fun g => ghok (Z.to_nat num) (fst g)) ([] ++ [(zfun (gh_of xs), zfun (ov_of xs))])).
  { constructor; [|constructor]. intros p k q Hp Hq. cbn [fst] in Hq. unfold zfun, gh_of in Hq. assert (Ho : CommModel.on num (Z.of_nat p)) by (unfold CommModel.on; lia). destruct (HX _ Ho) as [_ []]. rewrite st_mas0 in Hq. apply in_map_iff in Hq. destruct Hq as (g & <- & Hg). apply st_gh0 in Hg. destruct Hg as [Hg _]. rewrite EN. apply (rank_master _ k g Ho Hg). }
  destruct (update_adj_ok (Z.to_nat num) xs [] (fresh (Z.to_nat num)) ltac:(lia) eq_refl GK) as (ms' & ER & AH & PR).
  { intros p Hp. rewrite EN in Hp. destruct (HX p Hp) as [_ S]. rewrite (st_p _ _ _ S). unfold fresh. unfold CommModel.on in Hp. rewrite (nth_indep _ _ (MESH_Set_Prtn pmesh_new (Z.of_nat 0%nat) (Z.of_nat (Z.to_nat num)))) by (rewrite map_length, seq_length; lia). rewrite (map_nth (fun p => MESH_Set_Prtn pmesh_new (Z.of_nat p) (Z.of_nat (Z.to_nat num)))), seq_nth by lia. f_equal; lia. }
  cbv zeta in *. rewrite EN in PR. exists (fun p => ExchModel.set_par (xs p) (nth (Z.to_nat p) ms' pmesh_new) 1). split; [|split; [auto|split]].
  - intro lo. unfold finish_rank. apply protocol_lift with (v := xs); [intros p Hp; apply HX; auto|]. apply PR.
  - intros p Hp. destruct (HX p Hp) as [_ []]. constructor; auto.
  - intros p q k Hp Hq Hk. destruct (C21_symmetric (Z.to_nat num) [] (zfun (gh_of xs)) (zfun (ov_of xs)) ltac:(lia) GK) as (ms2 & E2 & _ & X). rewrite ER in E2. inversion E2. subst ms2. unfold CommModel.on in Hp, Hq. destruct (X (Z.to_nat p) (Z.to_nat q) k ltac:(lia) ltac:(lia) Hk) as ((b & B1 & B2 & B3) & _). rewrite !Z2Nat.id in B1, B2 by lia. exists b. cbn [ExchModel.set_par x_p]. split; auto. split; auto. rewrite B3. cbn [app].
    destruct (HX p Hp) as [_ S]. split.
    + intros (Ne & g & [<-|[]] & Hg). cbn [fst] in Hg. unfold zfun, gh_of in Hg. rewrite !Z2Nat.id in Hg by lia. rewrite (st_mas _ _ _ S) in Hg. apply in_map_iff in Hg. destruct Hg as (e & E & He). apply (st_gh _ _ _ S) in He. split; [intro Q; apply Ne; f_equal; exact Q|]. exists e. tauto.
    + intros (Ne & g & Hg & Eg). split; [intro; apply Ne; lia|]. eexists. split; [left; reflexivity|]. cbn [fst]. unfold zfun, gh_of. rewrite !Z2Nat.id by lia. rewrite (st_mas _ _ _ S). apply in_map_iff. exists g. split; auto. apply (st_gh _ _ _ S). split; auto. lia.
Qed.
Lemma start_shared : forall val xs d, (forall p, CommModel.on num p -> kept_started (val p) p (xs p)) -> bshared num d xs.
Proof using D LM HM ID.
  intros val xs d H. constructor; [constructor| |].
  - intros q Hq. apply (ks_os _ _ _ (H q Hq)).
  - intros q o Hq Ho. pose proof (H q Hq) as S. apply (ks_ov _ _ _ S) in Ho. rewrite (ks_gid _ _ _ S). destruct (rank_gid q d o Hq (proj1 Ho)). lia.
  - intros p g Hp Hg. pose proof (H p Hp) as S. apply (ks_gh _ _ _ S) in Hg. destruct Hg as [Hg Ng]. destruct (rank_master p d g Hp Hg) as [Hm _]. unfold owner_of. rewrite (ks_mas _ _ _ S), (ks_gid _ _ _ S). split; auto. split; auto. destruct (rank_owner p d g Hp Hg) as (q' & H1 & H2 & H3). exists q'. pose proof (H _ Hm) as S2. rewrite (ks_gid _ _ _ S2). split; auto. apply (ks_ov _ _ _ S2). split; auto. split; auto. exists p, g. auto.
  - intros p Hp. apply (ks_gs _ _ _ (H p Hp)).
  - intros p h Hp Hh Ho. pose proof (H p Hp) as S. apply (ks_gh _ _ _ S) in Hh. apply (ks_ov _ _ _ S) in Ho. tauto.
Qed.
End Ranks.
