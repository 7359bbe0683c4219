(** C49: layers of ghost cells around the parts of a mesh (MESH_AddGhost.c, MESH_Partition_and_Send.c). *)
From Coq Require Import ZArith Bool Floats.SpecFloat List Lia Arith ZifyBool ZifyNat.
From Verif Require Import Base BaseProofs ListSpec AttModel AttProps TopoModel TopoSpec TopoProofs2 TopoProps TopoProps2 CheckProps ParModel FileModel FileSpec FileProofs4 SendModel SendSpec PartModel PartSpec PartProofs PartProofs2 PartProofs3 PartProps PartProps2 GhostModel GhostSpec GhostProofs GhostProofs2 GhostProofs5.
Import ListNotations.
Open Scope Z_scope.

Lemma combine_nth : forall A (subs : list A) i w, nth_error (combine (zrange 0 (Z.of_nat (length subs))) subs) i = Some w -> fst w = Z.of_nat i /\ nth_error subs i = Some (snd w).
Proof.
  intros A subs i w H. unfold zrange in H. replace (Z.to_nat (Z.of_nat (length subs) - 0)) with (length subs) in H by lia.
  assert (G : forall (l : list A) b i w, nth_error (combine (map (fun j => 0 + Z.of_nat j) (seq b (length l))) l) i = Some w -> fst w = Z.of_nat (b + i) /\ nth_error l i = Some (snd w)).
  { clear. induction l as [|x l IH]; intros b i w H; [destruct i; discriminate H|]. cbn [length seq map combine] in H. destruct i as [|i]; cbn [nth_error] in *; [inversion H; cbn [fst snd]; split; auto; lia|]. apply IH in H. destruct H as [H1 H2]. split; auto. rewrite H1. lia. }
  apply (G subs 0%nat). exact H.
Qed.

Theorem C49_ghosts : forall s a part num ring, partable s a -> unparted s -> cells s <> [] -> length (cells s) = length part -> (forall i, In i part -> 0 <= i < num) -> 0 <= num < 2 ^ 29 ->
  (0 < ring -> forall k, 0 <= k < num -> In k part) ->
  exists s' g2l outs, partition_with_ghosts s num ring part = Ok (s', g2l, outs) /\ sm_m s' = sm_m s /\ Z.of_nat (length outs) = num /\
    (* each is its part and [ring] layers around it *)
    (forall k sub l2g, nth_error outs k = Some (sub, l2g) ->
       (exists a', is_halo s a part (Z.of_nat k) (Z.to_nat ring) s' sub a' l2g) /\ flagged s a part (Z.of_nat k) sub l2g /\
       (no_dangling s a -> typed s a part (Z.of_nat k) (Z.to_nat ring) sub l2g)) /\
    (* the lists of copies *)
    (forall x j l, In (j, l) (g2l x) <-> 0 <= j /\ exists sub l2g d, nth_error outs (Z.to_nat j) = Some (sub, l2g) /\ In l (skind sub d) /\ l2g l = x) /\ (forall x, NoDup (map fst (g2l x))).
Proof.
  intros s a part num ring P U NE HL HP HN HR. destruct (C46_partition s a part num P U NE ltac:(lia) HN) as (s' & g2l & subs & E & Em & _ & LS & IP & GLs & ND & OWN & _).
  unfold partition_with_ghosts. rewrite E. cbn [bind].
  (* every entity of a halo is in a part *)
  assert (CV : forall k n d x, In x (skind s d) -> halo s a part k n x -> exists j sub l2g q, 0 <= j < num /\ nth_error subs (Z.to_nat j) = Some (sub, l2g) /\ (exists a', is_part s a part j s' sub a' l2g) /\ In q (skind sub d) /\ l2g q = x /\ inpart s a part j x).
  { intros k n d x Hx (y & Hy & Q). pose proof (within_cell s a part k P _ _ Hy) as Ky. apply In_nth_error in Ky. destruct Ky as [i Ei]. assert (Li : (i < length part)%nat) by (rewrite <- HL; apply nth_error_Some; congruence). apply nth_error_Some in Li. destruct (nth_error part i) as [j|] eqn:Ej; [|congruence].
    assert (Hj := HP j ltac:(eapply nth_error_In; eauto)). assert (Ij : inpart s a part j x) by (assert (inpart s a part j y) by (eapply ip_cell; eauto); destruct Q as [->|Q]; auto; eapply inpart_down; eauto).
    destruct (nth_error subs (Z.to_nat j)) as [[sub l2g]|] eqn:Es; [|apply nth_error_None in Es; lia]. destruct (IP _ _ _ Es) as (a' & I). rewrite Z2Nat.id in I by lia. destruct (g_of s a part j s' sub a' l2g I d x Hx Ij) as (q & Hq & Eq). exists j, sub, l2g, q. eauto 10. }
  assert (HO : forall k n d x, In x (skind s d) -> halo s a part k n x -> owner s a part x (pi_master (sm_p s' x)) /\ pi_master (sm_p s' x) < 2 ^ 29 /\ pi_gid (sm_p s' x) <> 0).
  { intros k n d x Hx Hh. destruct (CV k n d x Hx Hh) as (j & sub & l2g & q & Hj & Es & (a' & I) & Hq & Eq & Ij). pose proof (po_master _ _ _ _ _ _ _ _ I _ _ Hq) as OW. rewrite Eq in OW. set (m := pi_master (sm_p sub q)) in *. assert (Lm : m <= j) by (destruct (Z.le_gt_cases m j); auto; destruct OW as (_ & _ & OW); destruct (OW j); auto; lia). rewrite (OWN d x m Hx ltac:(lia) OW). split; auto. split; [lia|].
    destruct (po_gid _ _ _ _ _ _ _ _ I _ _ Hq) as [G1 G2]. rewrite Eq in G1. congruence. }
  assert (FULL : forall k n d x, In x (skind s d) -> halo s a part k n x -> g2l x <> []).
  { intros k n d x Hx Hh. destruct (CV k n d x Hx Hh) as (j & sub & l2g & q & Hj & Es & _ & Hq & Eq & _). assert (IN : In (j, q) (g2l x)) by (apply GLs; split; [lia|]; exists sub, l2g, d; auto). intro Z0. rewrite Z0 in IN. destruct IN. }
  set (OUT := fun k (y : smesh * (ptr -> ptr)) => (exists a', is_halo s a part (Z.of_nat k) (Z.to_nat ring) s' (fst y) a' (snd y)) /\ flagged s a part (Z.of_nat k) (fst y) (snd y) /\ (no_dangling s a -> typed s a part (Z.of_nat k) (Z.to_nat ring) (fst y) (snd y))).
  edestruct (each (Z * (smesh * (ptr -> ptr))) ((ptr -> list (Z * ptr)) * list (smesh * (ptr -> ptr))) (fun dn y => length (snd y) = length dn /\ (forall i z, nth_error (snd y) i = Some z -> OUT i z) /\
    (forall x i l, In (Z.of_nat i, l) (fst y x) <-> if (i <? length dn)%nat then exists z d, nth_error (snd y) i = Some z /\ In l (skind (fst z) d) /\ snd z l = x else In (Z.of_nat i, l) (g2l x)) /\
    (forall x j l, In (j, l) (fst y x) -> 0 <= j) /\ (forall x, NoDup (map fst (fst y x))) /\ (forall x, fst y x = [] -> g2l x = []))) with (step := add_ghosts s' ring) (full := combine (zrange 0 num) subs) (st := (g2l, @nil (smesh * (ptr -> ptr)))) as (st & EF & Q).
  3: { rewrite EF. cbn [bind]. destruct st as [gl outs]. cbn [fst snd] in *. destruct Q as (Q1 & Q2 & Q3 & Q4 & Q5 & _). exists s', gl, outs. split; auto. split; auto. rewrite combine_length in Q1. assert (LZ : length (zrange 0 num) = Z.to_nat num) by (unfold zrange; rewrite map_length, seq_length; lia). rewrite LZ in Q1. split; [lia|]. split; [intros k sub l2g Hk; apply (Q2 k (sub, l2g) Hk)|]. split; [|auto].
    intros x j l. split.
    - intro H. pose proof (Q4 _ _ _ H) as Hj. split; auto. replace j with (Z.of_nat (Z.to_nat j)) in H by lia. apply Q3 in H. rewrite combine_length, LZ in H. destruct (Nat.ltb_spec (Z.to_nat j) (Init.Nat.min (Z.to_nat num) (length subs))) as [L|L].
      + destruct H as ([sub l2g] & d & H1 & H2 & H3). exists sub, l2g, d. auto.
      + exfalso. apply GLs in H. destruct H as (_ & sub & l2g & d & H & _). assert (nth_error subs (Z.to_nat j) <> None) by (rewrite Nat2Z.id in H; congruence). apply nth_error_Some in H0. lia.
    - intros (Hj & sub & l2g & d & H1 & H2 & H3). replace j with (Z.of_nat (Z.to_nat j)) by lia. apply Q3. assert (L : (Z.to_nat j < length outs)%nat) by (apply nth_error_Some; congruence). rewrite combine_length, LZ. destruct (Nat.ltb_spec (Z.to_nat j) (Init.Nat.min (Z.to_nat num) (length subs))); [|lia]. exists (sub, l2g), d. auto. }
  2: { cbn [fst snd length]. split; auto. split; [intros i z H; destruct i; discriminate H|]. split; [intros x i l; reflexivity|]. split; [intros x j l H; apply GLs in H; tauto|]. auto. }
  intros dn w rest [gl outs] Ef (Q1 & Q2 & Q3 & Q4 & Q5 & Q6). cbn [fst snd] in *. replace num with (Z.of_nat (length subs)) in Ef by lia.
  assert (EW : nth_error (combine (zrange 0 (Z.of_nat (length subs))) subs) (length dn) = Some w) by (rewrite Ef, nth_error_app2, Nat.sub_diag; auto). apply combine_nth in EW. destruct w as [k [sub l2g]]. cbn [fst snd] in EW. destruct EW as [Ek Es]. set (i := length dn) in *.
  destruct (IP _ _ _ Es) as (a' & I). rewrite <- Ek in I. assert (Li : (i < length subs)%nat) by (apply nth_error_Some; congruence). assert (Hk : 0 <= k < num) by lia.
  destruct (C47_boundary s a part num s' g2l subs i sub l2g P U NE ltac:(lia) HN E Es) as (bs & Eb & B1 & _ & B2 & B3 & B4). rewrite <- Ek in B3.
  unfold add_ghosts. rewrite Eb. cbn [bind].
  assert (PC : ring <= 0 \/ skind sub (celldim s) <> []).
  { destruct (Z.le_gt_cases ring 0) as [L|L]; auto. right. pose proof (HR ltac:(lia) k Hk) as H. apply In_nth_error in H. destruct H as [j Ej]. assert (Lj : (j < length (cells s))%nat) by (rewrite HL; apply nth_error_Some; congruence). apply nth_error_Some in Lj. destruct (nth_error (cells s) j) as [x|] eqn:Ex; [|congruence]. destruct (g_of s a part k s' sub a' l2g I (celldim s) x (nth_error_In _ _ Ex)) as (q & Hq & _); [eapply ip_cell; eauto|]. intro Z0. rewrite Z0 in Hq. destruct Hq. }
  destruct (AddGhost_ok s a part k s' sub a' l2g gl bs ring P I Em) with (ids := fun _ : Z => 1) as (st2 & a3 & E2 & H1 & H2 & H3 & H4 & H5 & H6 & H7); auto.
  { intros n d x Hx Hh Z0. apply (FULL k n d x Hx Hh). auto. } { intros n d x Hx Hh. eapply HO; eauto. }
  { intros x l. rewrite Ek, Q3, Nat.ltb_irrefl, GLs, Nat2Z.id. split; [intros (_ & sub1 & l1 & d & X1 & X2 & X3); rewrite Es in X1; inversion X1; subst; eauto|intros (d & X1 & X2); split; [lia|]; exists sub, l2g, d; auto]. }
  rewrite E2. cbn [bind]. eexists. split; [reflexivity|]. cbn [fst snd]. rewrite !app_length. cbn [length]. split; [lia|]. split; [|split; [|split; [|split]]]; auto.
  - intros j z Hz. destruct (Nat.lt_trichotomy j (length outs)) as [L|[L|L]].
    + rewrite nth_error_app1 in Hz by auto. auto.
    + subst j. rewrite nth_error_app2, Nat.sub_diag in Hz by auto. inversion Hz; subst z. unfold OUT. cbn [fst snd]. rewrite Q1. fold i. rewrite <- Ek. split; [eauto|]. split; auto. intro NDg. apply H3.
      destruct (C47_shared s a part num s' g2l subs i sub l2g P U NE HL HP HN NDg E Es) as (bs' & Eb' & SH). rewrite Eb in Eb'. inversion Eb'. subst bs'. rewrite <- Ek in SH. intros d q Hq. rewrite (SH d q Hq). split; [intros (j & _ & X); eauto|]. intros (j & Nj & Ij). exists j. split; auto. destruct (inpart_cell _ _ _ _ _ Ij) as (i' & y & _ & E2' & _). apply HP. eapply nth_error_In; eauto.
    + rewrite nth_error_app2 in Hz by lia. destruct (j - length outs)%nat as [|[|]] eqn:Ej; try discriminate Hz. lia.
  - intros x j l. destruct (Nat.eq_dec j i) as [->|Nj].
    + rewrite <- Ek at 1. rewrite H4. change (length dn) with i. replace (i <? i + 1)%nat with true by (symmetry; apply Nat.ltb_lt; lia). rewrite nth_error_app2 by lia. replace (i - length outs)%nat with 0%nat by lia. cbn [nth_error]. cbv iota. split; [intros (d & X); eexists _, d; split; [reflexivity|exact X]|]. intros (z & d & X1 & X2). inversion X1; subst z. eauto.
    + rewrite (H5 x (Z.of_nat j) l) by lia. change (length dn) with i. rewrite Q3. destruct (Nat.ltb_spec j i) as [L|L]; destruct (Nat.ltb_spec j (i + 1)) as [L'|L']; try lia; [|reflexivity]. rewrite nth_error_app1 by lia. reflexivity.
  - intros x j l H. destruct (Z.eq_dec j k) as [->|Nj]; [lia|]. apply H5 in H; eauto.
Qed.
Print Assumptions C49_ghosts.

(** ** What is sent and what is received *)
Lemma zrange_iff : forall a b x, In x (zrange a b) <-> a <= x < b.
Proof. intros a b x. unfold zrange. rewrite in_map_iff. split; [intros (i & <- & H); apply in_seq in H; lia|]. intro H. exists (Z.to_nat (x - a)). split; [lia|]. apply in_seq. lia. Qed.
Lemma dec_some : forall (Q : Z -> Prop) l, (forall j, In j l -> Q j \/ ~ Q j) -> (exists j, In j l /\ Q j) \/ forall j, In j l -> ~ Q j.
Proof. intros Q l H. induction l as [|i l IH]; [right; intros j []|]. destruct (H i) as [Hi|Hi]; [left; auto|left; exists i; cbn; auto|]. destruct IH as [(j & Hj & Qj)|IH]; [intros; apply H; right; auto|left; exists j; cbn; auto|right]. intros j [<-|Hj]; auto. Qed.
Theorem C49_exchange : forall s a part num ring s' g2l outs, partable s a -> unparted s -> cells s <> [] -> length (cells s) = length part -> (forall i, In i part -> 0 <= i < num) -> 0 <= num < 2 ^ 29 ->
  (0 < ring -> forall k, 0 <= k < num -> In k part) -> no_dangling s a -> partition_with_ghosts s num ring part = Ok (s', g2l, outs) ->
  forall k sub l2g d q, nth_error outs k = Some (sub, l2g) -> In q (skind sub d) ->
    (* a ghost is overlap in the mesh of its master *)
    (pi_ptype (sm_p sub q) = PGHOST -> exists sub' l2g' q', nth_error outs (Z.to_nat (pi_master (sm_p sub q))) = Some (sub', l2g') /\ pi_master (sm_p sub q) <> Z.of_nat k /\ In q' (skind sub' d) /\ l2g' q' = l2g q /\
       pi_ptype (sm_p sub' q') = POVERLAP /\ pi_master (sm_p sub' q') = pi_master (sm_p sub q) /\ pi_gid (sm_p sub' q') = pi_gid (sm_p sub q)) /\
    (* what is overlap is a ghost in another mesh *)
    (pi_ptype (sm_p sub q) = POVERLAP -> pi_master (sm_p sub q) = Z.of_nat k /\ exists j sub' l2g' q', j <> k /\ nth_error outs j = Some (sub', l2g') /\ In q' (skind sub' d) /\ l2g' q' = l2g q /\
       pi_ptype (sm_p sub' q') = PGHOST /\ pi_master (sm_p sub' q') = Z.of_nat k /\ pi_gid (sm_p sub' q') = pi_gid (sm_p sub q)).
Proof.
  intros s a part num ring s' g2l outs P U NE HL HP HN HR NDg E k sub l2g d q Hk Hq. destruct (C49_ghosts s a part num ring P U NE HL HP HN HR) as (s1 & g1 & o1 & E1 & Em & LO & HO & _). rewrite E in E1. inversion E1. subst s1 g1 o1. clear E1. set (n := Z.to_nat ring) in *.
  assert (IJ : forall j x, halo s a part j n x -> 0 <= j < num).
  { intros j x (y & Hy & _). apply HP. clear - Hy. revert y Hy. induction n as [|n IH]; cbn [within]; [intros y (i & _ & H); eapply nth_error_In; eauto|]. intros y [H|(_ & z & H & _)]; eauto. }
  destruct (HO _ _ _ Hk) as ((a' & H) & _ & TY). specialize (TY NDg d q Hq). destruct TY as (T1 & T2 & T3). assert (HQ : In (l2g q) (skind s d) /\ halo s a part (Z.of_nat k) n (l2g q)) by (apply (ho_onto _ _ _ _ _ _ _ _ _ H); eauto). destruct HQ as [Kq Hh]. pose proof (ho_master _ _ _ _ _ _ _ _ _ H _ _ Hq) as OW. pose proof (ho_gid _ _ _ _ _ _ _ _ _ H _ _ Hq) as [GI _].
  set (m := pi_master (sm_p sub q)) in *. split.
  - intro TP. assert (NM : m <> Z.of_nat k). { intro EM. assert (NS : forall j, j <> Z.of_nat k -> ~ halo s a part j n (l2g q)) by (intros j Nj Hj; rewrite T2 in TP; eauto; discriminate TP). rewrite T3 in TP; auto. discriminate TP. }
    assert (Hm : halo s a part m n (l2g q)) by (apply (halo_mono s a part m 0); [lia|]; apply halo_0; auto; apply OW). pose proof (IJ _ _ Hm) as Lm. destruct (nth_error outs (Z.to_nat m)) as [[sub' l2g']|] eqn:Es; [|apply nth_error_None in Es; lia]. destruct (HO _ _ _ Es) as ((a2 & H2) & _ & TY2). rewrite Z2Nat.id in H2, TY2 by lia.
    destruct (proj1 (ho_onto _ _ _ _ _ _ _ _ _ H2 d (l2g q)) (conj Kq Hm)) as (q' & Hq' & Eq'). exists sub', l2g', q'. split; auto. split; auto. split; auto. split; auto. pose proof (ho_master _ _ _ _ _ _ _ _ _ H2 _ _ Hq') as OW2. rewrite Eq' in OW2. pose proof (owner_one _ _ _ _ _ _ OW2 OW) as EM. destruct (ho_gid _ _ _ _ _ _ _ _ _ H2 _ _ Hq') as [G2 _]. rewrite Eq' in G2.
    split; [|split; auto; congruence]. apply (TY2 NDg d q' Hq'); auto. exists (Z.of_nat k). rewrite Eq'. auto.
  - intro TP. assert (EM : m = Z.of_nat k) by (destruct (Z.eq_dec m (Z.of_nat k)) as [|N]; auto; rewrite T1 in TP; auto; discriminate TP). split; auto.
    destruct (dec_some (fun j => j <> Z.of_nat k /\ halo s a part j n (l2g q)) (zrange 0 num)) as [(j & _ & Nj & Hj)|NO].
    { intros j Hj. apply zrange_iff in Hj. destruct (Z.eq_dec j (Z.of_nat k)) as [->|N]; [right; tauto|]. destruct (nth_error outs (Z.to_nat j)) as [[sub' l2g']|] eqn:Es; [|apply nth_error_None in Es; lia]. destruct (HO _ _ _ Es) as ((a2 & H2) & _). rewrite Z2Nat.id in H2 by lia.
      destruct (in_dec Z.eq_dec (l2g q) (map l2g' (skind sub' d))) as [IN|NI]; [left; split; auto; apply in_map_iff in IN; apply (ho_onto _ _ _ _ _ _ _ _ _ H2 d (l2g q)); destruct IN as (x & X1 & X2); eauto|]. right. intros [_ Hj']. apply NI. destruct (proj1 (ho_onto _ _ _ _ _ _ _ _ _ H2 d (l2g q)) (conj Kq Hj')) as (q' & Hq' & <-). apply in_map. auto. }
    + pose proof (IJ _ _ Hj) as Lj. destruct (nth_error outs (Z.to_nat j)) as [[sub' l2g']|] eqn:Es; [|apply nth_error_None in Es; lia]. destruct (HO _ _ _ Es) as ((a2 & H2) & _ & TY2). rewrite Z2Nat.id in H2, TY2 by lia. destruct (proj1 (ho_onto _ _ _ _ _ _ _ _ _ H2 d (l2g q)) (conj Kq Hj)) as (q' & Hq' & Eq').
      exists (Z.to_nat j), sub', l2g', q'. split; [lia|]. split; auto. split; auto. split; auto. pose proof (ho_master _ _ _ _ _ _ _ _ _ H2 _ _ Hq') as OW2. rewrite Eq' in OW2. pose proof (owner_one _ _ _ _ _ _ OW2 OW) as EM2. destruct (ho_gid _ _ _ _ _ _ _ _ _ H2 _ _ Hq') as [G2 _]. rewrite Eq' in G2. split; [|split; congruence]. apply (TY2 NDg d q' Hq'). congruence.
    + exfalso. rewrite T3 in TP; auto; [discriminate TP|]. intros j Nj Hj. apply (NO j); auto. apply zrange_iff. apply (IJ _ _ Hj).
Qed.
Print Assumptions C49_exchange.
(** With one layer, every cell at a vertex of a cell of part [k] is in the mesh of [k]. *)
Theorem C49_neighbours : forall s a part num ring s' g2l outs, partable s a -> unparted s -> cells s <> [] -> length (cells s) = length part -> (forall i, In i part -> 0 <= i < num) -> 0 <= num < 2 ^ 29 ->
  0 < ring -> (forall k, 0 <= k < num -> In k part) -> partition_with_ghosts s num ring part = Ok (s', g2l, outs) ->
  forall i x k j y m, nth_error (cells s) i = Some x -> nth_error part i = Some k -> nth_error (cells s) j = Some y -> nth_error part j = Some m -> touch s a x y ->
  exists sub l2g q, nth_error outs (Z.to_nat k) = Some (sub, l2g) /\ In q (cells sub) /\ l2g q = y /\ pi_master (sm_p sub q) = m.
Proof.
  intros s a part num ring s' g2l outs P U NE HL HP HN R0 HR E i x k j y m Ex Ek Ey Ej T. destruct (C49_ghosts s a part num ring P U NE HL HP HN (fun _ => HR)) as (s1 & g1 & o1 & E1 & Em & LO & HO & _). rewrite E in E1. inversion E1. subst s1 g1 o1. clear E1.
  pose proof (HP k (nth_error_In _ _ Ek)) as Lk. destruct (nth_error outs (Z.to_nat k)) as [[sub l2g]|] eqn:Es; [|apply nth_error_None in Es; lia]. destruct (HO _ _ _ Es) as ((a2 & H) & _). rewrite Z2Nat.id in H by lia.
  assert (Hy : halo s a part k (Z.to_nat ring) y). { exists y. split; auto. apply (within_mono s a part k 1); [lia|]. cbn [within]. right. split; [eapply nth_error_In; eauto|]. exists x. split; auto. exists i. auto. }
  destruct (proj1 (ho_onto _ _ _ _ _ _ _ _ _ H (celldim s) y) (conj (nth_error_In _ _ Ey) Hy)) as (q & Hq & Eq). exists sub, l2g, q. split; auto. split; [|split; auto].
  - unfold cells. replace (celldim sub) with (celldim s); auto. destruct (c_23 s) as [C|C]; rewrite C in *.
    + unfold celldim. destruct (skind sub 3) as [|r l] eqn:E3; auto. exfalso. assert (Hr : In r (skind sub 3)) by (rewrite E3; left; auto). assert (Kr : In (l2g r) (skind s 3)) by (apply (ho_onto _ _ _ _ _ _ _ _ _ H 3 (l2g r)); eauto). unfold celldim in C. destruct (skind s 3); [destruct Kr|discriminate C].
    + unfold celldim. destruct (skind sub 3); [destruct Hq|auto].
  - pose proof (ho_master _ _ _ _ _ _ _ _ _ H _ _ Hq) as (_ & OW & _). rewrite Eq in OW. pose proof (cell_once s a part P j y _ Ey OW). congruence.
Qed.
Print Assumptions C49_neighbours.

(** ** Examples *)
(** For each kind: the original of each entity, its type and its master. *)
Definition kinds_of (x : smesh * (ptr -> ptr)) : list (list (ptr * Z * Z)) :=
  map (fun d => map (fun q => (snd x q, pi_ptype (sm_p (fst x) q), pi_master (sm_p (fst x) q))) (skind (fst x) d)) [0; 1; 2; 3].
(** Seven triangles in a row, on the vertices 1-9: triangle [i] is on i, i+1 and i+2. *)
Definition row : list top := repeat TNewV 9 ++ [TNewE; TSetVertex 10 false 1; TSetVertex 10 true 2] ++
  flat_map (fun i => [TNewE; TSetVertex (9 + 2 * i) false (i + 1); TSetVertex (9 + 2 * i) true (i + 2); TNewE; TSetVertex (10 + 2 * i) false (i + 2); TSetVertex (10 + 2 * i) true i]) (zrange 1 8) ++
  flat_map (fun i => [TNewF; TSetEdges (24 + i) [((if i =? 1 then 10 else 7 + 2 * i), true); (9 + 2 * i, true); (10 + 2 * i, true)]]) (zrange 1 8).
Definition row_mesh : smesh :=
  mkSM (mkFM (tget row) (fun p => (p mod 4, p)) xyz (fun p => p) (zrange 1 10) (zrange 10 25) (zrange 25 32) [] []) clean [].
Lemma row_ok : partable row_mesh (arun amesh0 row).
Proof. apply partableb_ok; [apply (reach_tget row); vm_compute; reflexivity|vm_compute; reflexivity]. Qed.
(** The triangles 25-27 and 28-31 are the parts.  With one layer 28 and 29, which are at the
    vertices 4 and 5, are ghosts of the first, and 26 and 27 of the second. *)
Example C49_ex : partable row_mesh (arun amesh0 row) /\ unparted row_mesh /\ no_dangling row_mesh (arun amesh0 row) /\
  match partition_with_ghosts row_mesh 2 1 [0; 0; 0; 1; 1; 1; 1] with
  | Ok (_, g2l, [p0; p1]) =>
      nth 2 (kinds_of p0) [] = [(25, 0, 0); (26, 1, 0); (27, 1, 0); (28, 3, 1); (29, 3, 1)] /\ nth 2 (kinds_of p1) [] = [(28, 1, 1); (29, 1, 1); (30, 0, 1); (31, 0, 1); (26, 3, 0); (27, 3, 0)] /\
      nth 0 (kinds_of p0) [] = [(1, 0, 0); (2, 1, 0); (3, 1, 0); (4, 1, 0); (5, 1, 0); (6, 3, 1); (7, 3, 1)] /\
      map (fun p => map fst (g2l p)) [1; 2; 4; 7; 8; 25; 26; 30] = [[0]; [0; 1]; [0; 1]; [1; 0]; [1]; [0]; [0; 1]; [1]]
  | _ => False
  end.
Proof. split; [exact row_ok|]. split; [apply unpartedb_ok; vm_compute; reflexivity|]. split; [apply danglingb_ok; vm_compute; reflexivity|]. vm_compute. repeat split; reflexivity. Qed.
(** Two layers of the first part are all the mesh; without layers the triangles are interior. *)
Example C49_ex_rings : match partition_with_ghosts row_mesh 2 2 [0; 0; 0; 1; 1; 1; 1], partition_with_ghosts row_mesh 2 0 [0; 0; 0; 1; 1; 1; 1] with
  | Ok (_, _, [p0; _]), Ok (_, _, [q0; q1]) => map (fun x => fst (fst x)) (nth 2 (kinds_of p0) []) = zrange 25 32 /\
      nth 2 (kinds_of q0) [] = [(25, 0, 0); (26, 0, 0); (27, 0, 0)] /\ firstn 2 (nth 0 (kinds_of q1) []) = [(4, 3, 0); (5, 3, 0)]
  | _, _ => False
  end.
Proof. vm_compute. repeat split; reflexivity. Qed.
Example C49_ex_vol : partable (tets_mesh clean) (arun amesh0 tets) /\ unparted (tets_mesh clean) /\ no_dangling (tets_mesh clean) (arun amesh0 tets) /\
  match partition_with_ghosts (tets_mesh clean) 2 1 [1; 0] with
  | Ok (_, _, [p0; p1]) => nth 3 (kinds_of p0) [] = [(23, 1, 0); (22, 3, 1)] /\ nth 3 (kinds_of p1) [] = [(22, 1, 1); (23, 3, 0)] /\ nth 0 (kinds_of p1) [] = [(1, 1, 1); (2, 3, 0); (3, 3, 0); (4, 3, 0); (5, 3, 0)]
  | _ => False
  end.
Proof. split; [apply tets_ok|]. split; [apply unpartedb_ok; vm_compute; reflexivity|]. split; [apply danglingb_ok; vm_compute; reflexivity|]. vm_compute. repeat split; reflexivity. Qed.

(** ** What fails *)
(** A part without cells: with a layer the program stops (MESH_AddGhost.c 72-73). *)
Theorem C49_empty_refuted : exists s a part num ring, partable s a /\ unparted s /\ no_dangling s a /\ cells s <> [] /\ length (cells s) = length part /\ (forall i, In i part -> 0 <= i < num) /\ 0 < ring /\
  (exists x, MESH_Partition s num part = Ok x) /\ partition_with_ghosts s num ring part = Fatal.
Proof.
  assert (H : match MESH_Partition row_mesh 3 [0; 0; 0; 2; 2; 2; 2] with Ok _ => true | _ => false end && match partition_with_ghosts row_mesh 3 1 [0; 0; 0; 2; 2; 2; 2] with Fatal => true | _ => false end = true) by (vm_compute; reflexivity). apply andb_prop in H. destruct H as [H1 H2].
  exists row_mesh, (arun amesh0 row), [0; 0; 0; 2; 2; 2; 2], 3, 1. split; [exact row_ok|]. split; [apply unpartedb_ok; vm_compute; reflexivity|]. split; [apply danglingb_ok; vm_compute; reflexivity|]. split; [discriminate|]. split; [reflexivity|]. split; [cbn; intuition lia|]. split; [lia|]. split.
  - destruct (MESH_Partition row_mesh 3 [0; 0; 0; 2; 2; 2; 2]) as [x| | |]; try discriminate H1. eauto.
  - destruct (partition_with_ghosts row_mesh 3 1 [0; 0; 0; 2; 2; 2; 2]); try discriminate H2. reflexivity.
Qed.
Print Assumptions C49_empty_refuted.
(** An edge without faces: the mesh is all of one part, but a cell of it is overlap, as the
    vertex of that edge is flagged. *)
Theorem C49_dangling_refuted : exists s a part ring s' g2l sub l2g, partable s a /\ unparted s /\ cells s <> [] /\ length (cells s) = length part /\ (forall i, In i part -> 0 <= i < 1) /\ In 0 part /\
  partition_with_ghosts s 1 ring part = Ok (s', g2l, [(sub, l2g)]) /\ exists q, In q (cells sub) /\ pi_ptype (sm_p sub q) = POVERLAP /\ forall j n, j <> 0 -> ~ halo s a part j n (l2g q).
Proof.
  assert (H : match partition_with_ghosts tail_mesh 1 1 [0; 0; 0] with
    | Ok (s', _, [(sub, f)]) => inb 7 (cells sub) && (pi_ptype (sm_p sub 7) =? 1)
    | _ => false end = true) by (vm_compute; reflexivity).
  destruct (partition_with_ghosts tail_mesh 1 1 [0; 0; 0]) as [[[s' g2l] outs]| | |] eqn:E; try discriminate H. destruct outs as [|[sub f] [|]]; try discriminate H. apply andb_prop in H. destruct H as [H1 H2]. apply inb_ok in H1.
  exists tail_mesh, (arun amesh0 tail), [0; 0; 0], 1, s', g2l, sub, f. split; [exact tail_ok|]. split; [apply unpartedb_ok; vm_compute; reflexivity|]. split; [discriminate|]. split; [reflexivity|]. split; [cbn; intuition lia|]. split; [left; auto|]. split; [exact E|]. exists 7. split; auto. split; [unfold POVERLAP; lia|].
  intros j n Nj (y & Hy & _). clear - Nj Hy. revert y Hy. induction n as [|n IH]; intros y Hy; [|destruct Hy as [Hy|(_ & z & Hz & _)]; eauto]. destruct Hy as (i & _ & Hi). apply nth_error_In in Hi. cbn in Hi. intuition.
Qed.
Print Assumptions C49_dangling_refuted.
