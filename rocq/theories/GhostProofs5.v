(** Adding ghosts to one part. *)
From Coq Require Import ZArith Bool Floats.SpecFloat List Lia Arith ZifyBool ZifyNat.
From Verif Require Import Base BaseProofs ListSpec AttModel AttProps TopoModel TopoSpec TopoProofs TopoProofs2 TopoProofs3 TopoProofs5 TopoProps TopoProps2 CellProofs2 ParModel BuildProofs2 FileModel FileSpec FileProofs3 FileProofs4 SendModel SendSpec SendProofs2 PartModel PartSpec PartProofs PartProofs2 PartProofs3 PartProps2 GhostModel GhostSpec GhostProofs GhostProofs2 GhostProofs3 GhostProofs4.
Import ListNotations.
Open Scope Z_scope.

(** ** A part as a mesh *)
Section Part.
Variables (s : smesh) (a : amesh) (part : list Z) (k : Z) (s' sub : smesh) (a' : amesh) (g : ptr -> ptr).
Hypothesis P : partable s a.
Hypothesis I : is_part s a part k s' sub a' g.
Notation K := (skind s).
Notation K' := (skind sub).
Notation c := (celldim s).
Lemma sub_partable : partable sub a'.
Proof using P I.
  constructor; try apply I.
  - intros e v0 v1 E. assert (He : In e (K' 1)) by (apply (po_e _ _ _ _ _ _ _ _ I); eexists; eauto). destruct (po_ends _ _ _ _ _ _ _ _ I _ He) as (u & w & E1 & _ & U & W). rewrite E in E1. inversion E1; subst. split; eapply sub_null; eauto.
  - intros f E. assert (Hf : In f (K' 2)) by (apply (po_f _ _ _ _ _ _ _ _ I); eexists; eauto). destruct (po_loop _ _ _ _ _ _ _ _ I _ Hf) as (b & E1 & _). congruence.
  - intros f b E. assert (Hf : In f (K' 2)) by (apply (po_f _ _ _ _ _ _ _ _ I); eexists; eauto). destruct (po_loop _ _ _ _ _ _ _ _ I _ Hf) as (b' & E1 & E2 & _). rewrite E in E1. inversion E1; subst b'. pose proof (pa_loops _ _ P _ _ E2) as L. unfold via in L. rewrite map_length in L. auto.
  - intros f E. assert (Hf : In f (K' 3)) by (apply (po_r _ _ _ _ _ _ _ _ I); eexists; eauto). destruct (po_faces _ _ _ _ _ _ _ _ I _ Hf) as (b & E1 & _). congruence.
  - intros d q Hq. rewrite (po_class _ _ _ _ _ _ _ _ I _ _ Hq). destruct (g_in s a part k s' sub a' g I d q Hq) as [H _]. eapply pa_class; eauto.
Qed.
Lemma sub_dim : K' c <> [] -> celldim sub = c.
Proof using P I.
  intro NE. destruct (c_23 s) as [C|C]; rewrite C in *.
  - unfold celldim. destruct (K' 3) as [|q l] eqn:E; auto. exfalso. assert (Hq : In q (K' 3)) by (rewrite E; left; auto). apply (g_in s a part k s' sub a' g I) in Hq. destruct Hq as [Hq _]. unfold celldim in C. destruct (K 3); [destruct Hq|discriminate C].
  - unfold celldim. destruct (K' 3); [congruence|auto].
Qed.
Lemma bounds_iff : forall d q d' x, In q (K' d) -> In x (K' d') -> (bounds a' q x <-> bounds a (g q) (g x)).
Proof using P I.
  assert (UP : forall q x, up a' q x -> up a (g q) (g x) /\ exists d', In x (K' d')).
  { intros q x [U|[U|[e U]]].
    - destruct (end_live s a part k s' sub a' g I _ _ U). split; [left; apply (end_iff s a part k s' sub a' g I); auto|eauto].
    - destruct (edge_live s a part k s' sub a' g I _ _ U). split; [right; left; apply (edge_iff s a part k s' sub a' g I); auto|eauto].
    - destruct (face_live s a part k s' sub a' g I _ _ _ U). split; [right; right; exists e; apply (face_iff s a part k s' sub a' g I); auto|eauto]. }
  assert (DN : forall d q d' x, In q (K' d) -> In x (K' d') -> up a (g q) (g x) -> up a' q x).
  { intros d q d' x Hq Hx U. destruct (g_in s a part k s' sub a' g I _ _ Hq) as [Kq _]. destruct (g_in s a part k s' sub a' g I _ _ Hx) as [Kx _]. destruct U as [U|[U|[e U]]].
    - destruct (end_kind s a P _ _ U) as [B1 B2]. rewrite (KA s a P _ _ _ Kx B1) in Hx. rewrite (KA s a P _ _ _ Kq B2) in Hq. left. apply (end_iff s a part k s' sub a' g I); auto.
    - destruct (edge_kind s a P _ _ U) as [B1 B2]. rewrite (KA s a P _ _ _ Kx B1) in Hx. rewrite (KA s a P _ _ _ Kq B2) in Hq. right. left. apply (edge_iff s a part k s' sub a' g I); auto.
    - destruct (face_kind s a P _ _ _ U) as [B1 B2]. rewrite (KA s a P _ _ _ Kx B1) in Hx. rewrite (KA s a P _ _ _ Kq B2) in Hq. right. right. exists e. apply (face_iff s a part k s' sub a' g I); auto. }
  intros d q d' x Hq Hx. split.
  - intro H. clear Hq Hx. induction H as [q x U|q y x U H IH]; [apply bd_one; apply UP; auto|]. eapply bd_more; [apply UP; exact U|auto].
  - intro H. remember (g q) as gq eqn:Eq. remember (g x) as gx eqn:Ex. revert d q Hq Eq. induction H as [y z U|y w z U H IH]; intros d q Hq Eq; subst.
    + apply bd_one. eapply DN; eauto.
    + destruct (g_in s a part k s' sub a' g I _ _ Hq) as [Kq _]. destruct (g_in s a part k s' sub a' g I _ _ Hx) as [_ Ix]. pose proof (inpart_down _ _ _ _ _ _ H Ix) as Iw. destruct (g_of s a part k s' sub a' g I _ _ (up_kind s a P _ _ _ Kq U) Iw) as (q' & Hq' & <-). eapply bd_more; [eapply DN; eauto|]. eapply IH; eauto.
Qed.
Lemma part_cell : forall x, In x (cells s) -> inpart s a part k x -> exists i, nth_error (cells s) i = Some x /\ nth_error part i = Some k.
Proof using P. intros x Hx H. destruct (inpart_cell _ _ _ _ _ H) as (i & y & E1 & E2 & [->|Q]); [eauto|]. destruct (cell_top s a P _ _ Hx Q). Qed.
Lemma sub_cover : K' c <> [] -> forall v, In v (K' 0) -> exists x, In x (cells sub) /\ bounds a' v x.
Proof using P I.
  intros NE v Hv. destruct (g_in s a part k s' sub a' g I _ _ Hv) as [Kv Iv]. destruct (inpart_cell _ _ _ _ _ Iv) as (i & y & E1 & E2 & Q). assert (Hy : In y (cells s)) by (eapply nth_error_In; eauto). assert (Iy : inpart s a part k y) by (eapply ip_cell; eauto). destruct (g_of s a part k s' sub a' g I c y Hy Iy) as (x & Hx & <-).
  exists x. unfold cells. rewrite (sub_dim NE). split; auto. eapply bounds_iff; eauto. destruct Q as [Q|Q]; auto. exfalso. rewrite Q in Kv. pose proof (KA s a P _ _ _ Kv Hy). destruct (c_23 s); lia.
Qed.

(** ** Overlap seen from the other parts *)
Variable bs : smesh.
Hypothesis BF : forall d q, In q (K' d) -> (pi_bdry (sm_p bs q) = true <-> exists x, bounds a (g q) x /\ ~ inpart s a part k x).
Hypothesis SH : forall d q, In q (K' d) -> (pi_bdry (sm_p bs q) = true <-> exists j, j <> k /\ inpart s a part j (g q)).
Hypothesis NE : K' c <> [].
Notation wj j := (within s a part j).
Lemma inn_iff : forall n q, In q (K' c) -> (inn sub a' bs n q <-> exists j, j <> k /\ wj j n (g q)).
Proof using All.
  assert (EC : cells sub = K' c) by (unfold cells; rewrite (sub_dim NE); auto).
  induction n as [|n IH]; intros q Hq; destruct (g_in s a part k s' sub a' g I _ _ Hq) as [Kq Iq]; cbn [inn within].
  - split; [intros []|]. intros (j & Nj & i & E1 & E2). pose proof (cell_once s a part P i (g q) k E1 Iq). congruence.
  - split.
    + intros [H|[_ (v & Kv & Bv & H)]]; [apply IH in H; auto; destruct H as (j & Nj & H); exists j; auto|]. destruct (g_in s a part k s' sub a' g I _ _ Kv) as [Kgv _]. apply (bounds_iff _ _ _ _ Kv Hq) in Bv. destruct H as [H|(q' & H1 & H2)].
      * apply (SH 0 v Kv) in H. destruct H as (j & Nj & Ij). exists j. split; auto. destruct (inpart_cell _ _ _ _ _ Ij) as (i & y & E1 & E2 & Q). assert (Hy : In y (cells s)) by (eapply nth_error_In; eauto). destruct Q as [Q|Q]; [exfalso; rewrite Q in Kgv; pose proof (KA s a P _ _ _ Kgv Hy); destruct (c_23 s); lia|].
        right. split; auto. exists y. split; [apply (within_mono s a part j 0); [lia|exists i; auto]|]. exists (g v). auto.
      * pose proof (inn_cell sub a' bs _ _ H1) as Hq'. rewrite EC in Hq'. apply IH in H1; auto. destruct H1 as (j & Nj & H1). exists j. split; auto. right. split; auto. exists (g q'). split; auto. exists (g v). split; auto. split; auto. apply (bounds_iff _ _ _ _ Kv Hq'). auto.
    + intros (j & Nj & [H|[_ (y & Hy & v & Kv & Bv & Bq)]]); [left; apply IH; eauto|]. right. rewrite EC. split; auto. assert (Iv : inpart s a part k v) by (eapply inpart_down; eauto). destruct (g_of s a part k s' sub a' g I _ _ Kv Iv) as (w & Hw & <-). exists w. split; auto. split; [apply (bounds_iff _ _ _ _ Hw Hq); auto|].
      pose proof (within_cell s a part j P _ _ Hy) as Ky. destruct (dec_inp s a part k s' sub a' g I _ _ Ky) as [Iy|Ny]; [|left; apply (BF 0 w Hw); eauto]. right. destruct (g_of s a part k s' sub a' g I _ _ Ky Iy) as (q' & Hq' & <-). exists q'. split; [apply IH; eauto|]. apply (bounds_iff _ _ _ _ Hw Hq'). auto.
Qed.
Lemma tn_iff : forall n d q, In q (K' d) -> pi_bdry (sm_p bs q) = false -> (Tn sub a' bs n q <-> exists j, j <> k /\ halo s a part j n (g q)).
Proof using All.
  intros n d q Hq Fq. assert (EC : cells sub = K' c) by (unfold cells; rewrite (sub_dim NE); auto). unfold Tn. split.
  - intros [H|(_ & x & H1 & H2)].
    + pose proof (inn_cell sub a' bs _ _ H) as Hc. rewrite EC in Hc. apply inn_iff in H; auto. destruct H as (j & Nj & H). exists j. split; auto. exists (g q). auto.
    + pose proof (inn_cell sub a' bs _ _ H1) as Hc. rewrite EC in Hc. apply inn_iff in H1; auto. destruct H1 as (j & Nj & H). exists j. split; auto. exists (g x). split; auto. right. apply (bounds_iff _ _ _ _ Hq Hc). auto.
  - intros (j & Nj & y & Hy & Q). pose proof (within_cell s a part j P _ _ Hy) as Ky. destruct (g_in s a part k s' sub a' g I _ _ Hq) as [Kq Iq].
    assert (Iy : inpart s a part k y). { destruct Q as [<-|Q]; auto. destruct (dec_inp s a part k s' sub a' g I _ _ Ky) as [Iy|Ny]; auto. exfalso. assert (pi_bdry (sm_p bs q) = true) by (apply (BF d q Hq); eauto). congruence. }
    destruct (g_of s a part k s' sub a' g I _ _ Ky Iy) as (x & Hx & <-). assert (Nx : inn sub a' bs n x) by (apply inn_iff; eauto). destruct Q as [Q|Q].
    + left. assert (q = x) by (eapply (po_inj _ _ _ _ _ _ _ _ I); eauto). subst. auto.
    + right. split; auto. exists x. split; auto. apply (bounds_iff _ _ _ _ Hq Hx). auto.
Qed.
End Part.

(** ** MESH_AddGhost *)
Lemma relabel_ok : forall k l x, let y := relabel k x l in sm_m y = sm_m x /\
  forall p, sm_p y p = if existsb (Z.eqb p) l && pi_bdry (sm_p x p) then mkPI (if pi_master (sm_p x p) =? k then POVERLAP else PGHOST) true (pi_master (sm_p x p)) (pi_gid (sm_p x p)) else sm_p x p.
Proof.
  intros k l. unfold relabel. induction l as [|q l IH]; intros x; cbn [fold_left existsb]; [auto|].
  specialize (IH (if pi_bdry (sm_p x q) then set_ptype x q (if pi_master (sm_p x q) =? k then POVERLAP else PGHOST) else x)). destruct IH as (A & B). split.
  - rewrite A. destruct (pi_bdry (sm_p x q)); auto.
  - intro p. rewrite B. destruct (pi_bdry (sm_p x q)) eqn:E.
    + unfold set_ptype, set_pi, zupd. cbn [sm_p]. destruct (Z.eqb_spec p q) as [->|N]; cbn [orb]; auto. cbn [pi_bdry pi_master pi_gid]. rewrite E. destruct (pi_master (sm_p x q) =? k); destruct (existsb (Z.eqb q) l); reflexivity.
    + destruct (Z.eqb_spec p q) as [->|N]; cbn [orb]; auto. rewrite E, !andb_false_r. auto.
Qed.
Lemma halo_ext : forall s a part k n s' sub a' o o', (forall d q, In q (skind sub d) -> o' q = o q) -> is_halo s a part k n s' sub a' o -> is_halo s a part k n s' sub a' o'.
Proof.
  intros s a part k n s' sub a' o o' E H. assert (EV : forall d b, (forall x, In x b -> In (fst x) (skind sub d)) -> via o' b = via o b) by (intros d b Hb; unfold via; apply map_ext_in; intros x Hx; rewrite (E d); auto). destruct H. constructor; auto.
  - intros d g. rewrite ho_onto. split; intros (q & Hq & Q); exists q; split; auto; rewrite <- Q; [apply (E d)|symmetry; apply (E d)]; auto.
  - intros d q d' q' Hq Hq'. rewrite (E d), (E d') by auto. eauto.
  - intros q Hq. destruct (ho_ends q Hq) as (u & w & E1 & E2 & Hu & Hw). exists u, w. rewrite (E 1), (E 0 u), (E 0 w) by auto. auto.
  - intros q Hq. destruct (ho_loop q Hq) as (b & E1 & E2 & Hb). exists b. rewrite (E 2), (EV 1 b) by auto. auto.
  - intros q Hq. destruct (ho_faces q Hq) as (b & E1 & E2 & Hb). exists b. rewrite (E 3), (EV 2 b) by auto. auto.
  - intros q Hq. rewrite (E 0) by auto. auto.
  - intros d q Hq. rewrite (E d) by auto. eauto.
  - intros d q Hq. rewrite (E d) by auto. eauto.
  - intros d q Hq. rewrite (E d) by auto. eauto.
Qed.

Section Add.
Variables (s : smesh) (a : amesh) (part : list Z) (k : Z) (s' sub : smesh) (a' : amesh) (g : ptr -> ptr) (g2l0 : ptr -> list (Z * ptr)) (bs : smesh) (ring : Z).
Hypothesis P : partable s a.
Hypothesis I : is_part s a part k s' sub a' g.
Hypothesis Em : sm_m s' = sm_m s.
Notation K := (skind s).
Notation K' := (skind sub).
Notation c := (celldim s).
Notation n := (Z.to_nat ring).
Hypothesis Hfull : forall n d x, In x (K d) -> halo s a part k n x -> g2l0 x <> [].
Hypothesis HO : forall n d x, In x (K d) -> halo s a part k n x -> owner s a part x (pi_master (sm_p s' x)) /\ pi_master (sm_p s' x) < 2 ^ 29 /\ pi_gid (sm_p s' x) <> 0.
Hypothesis GL : forall x l, In (k, l) (g2l0 x) <-> exists d, In l (K' d) /\ g l = x.
Hypothesis Eb : sm_m bs = sm_m sub.
Hypothesis Bp : forall q, pi_ptype (sm_p bs q) = 0 /\ pi_master (sm_p bs q) = pi_master (sm_p sub q) /\ pi_gid (sm_p bs q) = pi_gid (sm_p sub q).
Hypothesis BF : forall d q, In q (K' d) -> (pi_bdry (sm_p bs q) = true <-> exists x, bounds a (g q) x /\ ~ inpart s a part k x).
Hypothesis Bin : forall q, pi_bdry (sm_p bs q) = true -> exists d, In q (K' d).
Hypothesis NE : ring <= 0 \/ K' c <> [].
Notation SIn ov := (SI s a k s' ov g g2l0 (halo s a part k n)).

Lemma HM' : forall n d x, In x (K d) -> halo s a part k n x -> 0 <= pi_master (sm_p s' x) < 2 ^ 29.
Proof using HO. intros m d x Hx Hh. destruct (HO m d x Hx Hh) as ((A & _) & B & _). split; auto. Qed.
Lemma phases_ok : forall ids, exists st1 ov o2 a3, (if 0 <? ring then if 0 <? ZL (fm_r (sm_m bs)) then MESH_Vol_AddGhost k ring (mkPst s' g2l0 ids bs g) else if 0 <? ZL (fm_f (sm_m bs)) then MESH_Surf_AddGhost k ring (mkPst s' g2l0 ids bs g) else Fatal else Ok (mkPst s' g2l0 ids bs g)) = Ok st1 /\
  ot bs (if 0 <? ring then Tn sub a' bs n else fun _ => False) ov /\ SIn ov [] o2 st1 a3 /\ (forall x, within s a part k n x -> exists q, In q (skind (ps_sub st1) c) /\ o2 q = x).
Proof using All.
  intro ids. destruct (Z.ltb_spec 0 ring) as [L|L].
  - destruct NE as [N|N]; [lia|]. assert (PS := sub_partable s a part k s' sub a' g P I). assert (DS := sub_dim s a part k s' sub a' g P I N).
    destruct (ov_all_ok sub a' bs PS Eb (fun q => proj1 (Bp q)) (sub_cover s a part k s' sub a' g P I N) ring) as (ov & E1 & O1). rewrite DS in E1.
    assert (Eo : sm_m ov = sm_m sub) by (destruct O1 as (A & _); congruence).
    assert (Fo : forall q, (forall d, ~ In q (K' d)) -> pi_bdry (sm_p ov q) = false). { intros q H. destruct O1 as (_ & _ & A). destruct (A q) as (-> & _). destruct (pi_bdry (sm_p bs q)) eqn:E; auto. destruct (Bin _ E) as [d Hd]. destruct (H d Hd). }
    destruct (ghost_all_ok s a part k s' sub a' g g2l0 bs ov P I Em Hfull HM' GL Eb BF Eo Fo ids ring) as (st1 & o2 & a3 & E2 & S2 & C2). exists st1, ov, o2, a3. split; [|auto].
    rewrite Eb. change (fm_r (sm_m sub)) with (K' 3). change (fm_f (sm_m sub)) with (K' 2). unfold up_of, o_cell, g_cell in *. destruct (c_23 s) as [C|C]; rewrite C in *; cbn [Z.eqb Pos.eqb] in *.
    + assert (E3 : K' 3 = []) by (unfold celldim in DS; destruct (K' 3); [auto|discriminate DS]). rewrite E3. cbn [ZL length Z.of_nat Z.ltb]. destruct (Z.ltb_spec 0 (ZL (K' 2))) as [L2|L2]; [|exfalso; unfold ZL in L2; destruct (K' 2); [auto|cbn [length] in L2; lia]]. change (0 <? ZL (@nil ptr)) with false. cbv iota.
      unfold MESH_Surf_AddGhost. cbn [ps_sub]. rewrite E1. cbn [bind]. unfold set_sub. cbn [ps_par ps_g2l ps_ids ps_l2g]. rewrite Eb. exact E2.
    + destruct (Z.ltb_spec 0 (ZL (K' 3))) as [L2|L2]; [|exfalso; unfold ZL in L2; destruct (K' 3); [auto|cbn [length] in L2; lia]].
      unfold MESH_Vol_AddGhost. cbn [ps_sub]. rewrite E1. cbn [bind]. unfold set_sub. cbn [ps_par ps_g2l ps_ids ps_l2g]. rewrite Eb. exact E2.
  - exists (mkPst s' g2l0 ids bs g), bs, g, a'. split; auto. split; [|split].
    + split; auto. split; auto. intro p. destruct (Bp p) as (-> & _ & _). split; auto. split; auto. split; auto. split; auto. split; [discriminate|intros []].
    + replace n with 0%nat by lia. apply (start_si s a part k s' sub a' g g2l0 bs bs P I Em Hfull HM' GL Eb BF Eb). intros q H. destruct (pi_bdry (sm_p bs q)) eqn:E; auto. destruct (Bin _ E) as [d Hd]. destruct (H d Hd).
    + replace n with 0%nat by lia. intros x Hx. cbn [ps_sub]. unfold skind at 1. rewrite Eb. apply (g_of s a part k s' sub a' g I); [eapply within_cell; eauto|]. apply halo_0; auto. exists x. auto.
Qed.

Lemma AddGhost_ok : forall ids, exists st2 a3, MESH_AddGhost k ring (mkPst s' g2l0 ids bs g) = Ok st2 /\
  is_halo s a part k n s' (ps_sub st2) a3 (ps_l2g st2) /\ flagged s a part k (ps_sub st2) (ps_l2g st2) /\
  ((forall d q, In q (K' d) -> (pi_bdry (sm_p bs q) = true <-> exists j, j <> k /\ inpart s a part j (g q))) -> typed s a part k n (ps_sub st2) (ps_l2g st2)) /\
  (forall x l, In (k, l) (ps_g2l st2 x) <-> exists d, In l (skind (ps_sub st2) d) /\ ps_l2g st2 l = x) /\
  (forall x j l, j <> k -> (In (j, l) (ps_g2l st2 x) <-> In (j, l) (g2l0 x))) /\ (forall x, NoDup (map fst (g2l0 x)) -> NoDup (map fst (ps_g2l st2 x))) /\ (forall x, ps_g2l st2 x = [] -> g2l0 x = []).
Proof using All.
  intro ids. destruct (phases_ok ids) as (st1 & ov & o2 & a3 & E1 & OT & [T B] & CP). unfold MESH_AddGhost. cbn [ps_sub]. rewrite E1. cbn [bind].
  set (m := sm_m (ps_sub st1)) in *. set (nr := 0 <? ZL (fm_r (sm_m bs))). set (s1 := relabel k (ps_sub st1) (fm_v m)). set (ss := relabel k s1 (fm_e m)). set (s2 := if nr then relabel k ss (fm_f m) else ss).
  assert (S2 : sm_m s2 = m /\ forall p, sm_p s2 p = if (existsb (Z.eqb p) (fm_v m) || existsb (Z.eqb p) (fm_e m) || nr && existsb (Z.eqb p) (fm_f m)) && pi_bdry (sm_p (ps_sub st1) p) then mkPI (if pi_master (sm_p (ps_sub st1) p) =? k then POVERLAP else PGHOST) true (pi_master (sm_p (ps_sub st1) p)) (pi_gid (sm_p (ps_sub st1) p)) else sm_p (ps_sub st1) p).
  { pose proof (relabel_ok k (fm_v m) (ps_sub st1)) as (A1 & B1). fold s1 in A1, B1. fold m in A1. pose proof (relabel_ok k (fm_e m) s1) as (A2 & B2). fold ss in A2, B2. pose proof (relabel_ok k (fm_f m) ss) as (A3 & B3). clearbody s1 ss. split.
    - unfold s2. destruct nr; [transitivity (sm_m ss); [exact A3|]|]; transitivity (sm_m s1); auto.
    - intro p. unfold s2. destruct nr; cbn [andb]; rewrite ?B3, ?B2, ?B1; destruct (pi_bdry (sm_p (ps_sub st1) p)) eqn:EB, (existsb (Z.eqb p) (fm_v m)), (existsb (Z.eqb p) (fm_e m)), (existsb (Z.eqb p) (fm_f m)); cbn [andb orb pi_bdry pi_master pi_gid]; rewrite ?EB; cbn [andb orb pi_bdry pi_master pi_gid]; rewrite ?EB; reflexivity. }
  clearbody s2. destruct S2 as [SM SP]. eexists _, a3. split; [reflexivity|]. cbn [set_sub ps_sub ps_l2g ps_g2l].
  assert (EK : forall d, skind s2 d = skind (ps_sub st1) d) by (intro d; unfold skind; rewrite SM; auto).
  assert (L2 : forall d q, In q (skind s2 d) -> ps_l2g st1 q = o2 q) by (intros d q Hq; rewrite EK in Hq; apply (b_l2g _ _ _ _ _ _ _ _ B d); auto).
  assert (SAME : forall q, pi_bdry (sm_p s2 q) = pi_bdry (sm_p (ps_sub st1) q) /\ pi_master (sm_p s2 q) = pi_master (sm_p (ps_sub st1) q) /\ pi_gid (sm_p s2 q) = pi_gid (sm_p (ps_sub st1) q)).
  { intro q. rewrite SP. destruct ((_ || _ || _) && pi_bdry (sm_p (ps_sub st1) q)) eqn:E; auto. apply andb_prop in E. destruct E as [_ E]. cbn [pi_bdry pi_master pi_gid]. auto. }
  assert (EO : forall d, skind ov d = K' d) by (intro d; unfold skind; destruct OT as (A & _); rewrite A, Eb; auto).
  assert (OLD : forall d q, In q (K' d) -> In q (skind (ps_sub st1) d) /\ o2 q = g q /\ sm_p (ps_sub st1) q = sm_p ov q) by (intros d q Hq; apply (b_old _ _ _ _ _ _ _ _ B); rewrite EO; auto).
  assert (NEW : forall d q, In q (skind s2 d) -> In q (K' d) \/ sm_p s2 q = mkPI PGHOST false (pi_master (sm_p s' (o2 q))) (pi_gid (sm_p s' (o2 q))) /\ ~ inpart s a part k (o2 q)).
  { intros d q Hq. destruct (in_dec Z.eq_dec q (K' d)) as [H|H]; auto. right. rewrite EK in Hq. destruct (b_new _ _ _ _ _ _ _ _ B _ _ Hq) as [H'|H']; [rewrite EO in H'; contradiction|]. split.
    - rewrite SP, H'. cbn [pi_bdry]. rewrite andb_false_r. auto.
    - intro Ik. destruct (t_o _ _ _ _ _ _ _ T _ _ Hq) as [Kq _]. destruct (g_of s a part k s' sub a' g I _ _ Kq Ik) as (q' & Hq' & E'). destruct (OLD _ _ Hq') as (H1 & H2 & _). assert (q' = q) by (eapply (t_inj _ _ _ _ _ _ _ T); eauto; congruence). subst. auto. }
  assert (INFO : forall d q, In q (K' d) -> pi_bdry (sm_p s2 q) = pi_bdry (sm_p bs q) /\ pi_master (sm_p s2 q) = pi_master (sm_p sub q) /\ pi_gid (sm_p s2 q) = pi_gid (sm_p sub q)).
  { intros d q Hq. destruct (SAME q) as (-> & -> & ->). destruct (OLD _ _ Hq) as (_ & _ & ->). destruct OT as (_ & _ & A). destruct (A q) as (-> & -> & -> & _). destruct (Bp q) as (_ & -> & ->). auto. }
  assert (MEM : forall d q, In q (K' d) -> pi_bdry (sm_p bs q) = true -> existsb (Z.eqb q) (fm_v m) || existsb (Z.eqb q) (fm_e m) || nr && existsb (Z.eqb q) (fm_f m) = true).
  { intros d q Hq Fq. destruct (OLD _ _ Hq) as (Hm & _). destruct (g_in s a part k s' sub a' g I _ _ Hq) as [Kq Iq]. apply (BF d q Hq) in Fq. destruct Fq as (y & By & _). assert (DC : d <> c) by (intro; subst d; apply (cell_top s a P _ _ Kq By)).
    assert (D2 : d = 2 -> nr = true). { intro; subst d. assert (C3 : c = 3) by (destruct (c_23 s); auto; congruence). destruct (inpart_cell _ _ _ _ _ Iq) as (i & z & E1' & E2 & _). assert (Iz : inpart s a part k z) by (eapply ip_cell; eauto). destruct (g_of s a part k s' sub a' g I c z (nth_error_In _ _ E1') Iz) as (r & Hr & _). rewrite C3 in Hr. unfold nr. rewrite Eb. change (fm_r (sm_m sub)) with (K' 3). unfold ZL. destruct (K' 3); [destruct Hr|cbn [length]; lia]. }
    destruct (kind_cases _ _ _ Hq) as [-> | [-> | [-> | ->]]].
    - change (In q (fm_v m)) in Hm. apply inx in Hm. rewrite Hm. auto.
    - change (In q (fm_e m)) in Hm. apply inx in Hm. rewrite Hm, orb_true_r. auto.
    - change (In q (fm_f m)) in Hm. apply inx in Hm. rewrite Hm, (D2 eq_refl), !orb_true_r. auto.
    - exfalso. destruct (c_23 s) as [C|C]; [|congruence]. unfold celldim in C. destruct (K 3); [destruct Kq|discriminate C]. }
  assert (TF : forall d q, In q (K' d) -> pi_bdry (sm_p bs q) = true -> pi_ptype (sm_p s2 q) = if pi_master (sm_p s2 q) =? k then 1 else 3).
  { intros d q Hq Fq. destruct (INFO _ _ Hq) as (H1 & _ & _). destruct (SAME q) as (H2 & H3 & _). rewrite H3, SP, (MEM _ _ Hq Fq). rewrite <- H2, H1, Fq. reflexivity. }
  assert (TU : forall d q, In q (K' d) -> pi_bdry (sm_p bs q) = false -> pi_ptype (sm_p s2 q) = pi_ptype (sm_p ov q)).
  { intros d q Hq Fq. destruct (INFO _ _ Hq) as (H1 & _ & _). destruct (SAME q) as (H2 & _). rewrite SP, <- H2, H1, Fq, andb_false_r. destruct (OLD _ _ Hq) as (_ & _ & ->). auto. }
  split; [apply (halo_ext s a part k n s' s2 a3 o2); auto|split; [|split; [|split; [|split; [|split]]]]].
  - assert (ET : sm_t s2 = sm_t (ps_sub st1)) by (unfold sm_t; rewrite SM; auto). destruct T. constructor; intros; rewrite ?EK in *; rewrite ?ET, ?SM in *; auto.
    + eauto.
    + split; [|intros (q & Hq & <-); auto]. intros [Kg (x & Hx & Q)]. destruct (CP _ Hx) as (q & Hq & Eq). destruct Q as [->|Q].
      * pose proof (within_cell s a part k P _ _ Hx) as Kx. rewrite (KA s a P _ _ _ Kg Kx). eauto.
      * destruct (copied_down s a part k P n o2 (ps_sub st1) a3 _ _ q ltac:(constructor; auto) Q ltac:(eauto) Eq) as (d' & q' & Hq' & E'). destruct (t_o _ _ Hq') as [Kq' _]. rewrite E' in Kq'. rewrite (KA s a P _ _ _ Kg Kq'). eauto.
    + eauto.
    + eauto.
    + destruct (t_o _ _ H) as [Kq Hq]. rewrite <- EK in H. destruct (NEW _ _ H) as [H1|[H1 _]]; [|rewrite H1; cbn [pi_gid]; split; auto; eapply HO; eauto]. destruct (INFO _ _ H1) as (_ & _ & ->). destruct (OLD _ _ H1) as (_ & -> & _). apply (po_gid _ _ _ _ _ _ _ _ I d). auto.
    + destruct (t_o _ _ H) as [Kq Hq]. rewrite <- EK in H. destruct (NEW _ _ H) as [H1|[H1 _]]; [|rewrite H1; cbn [pi_master]; eapply HO; eauto]. destruct (INFO _ _ H1) as (_ & -> & _). destruct (OLD _ _ H1) as (_ & -> & _). apply (po_master _ _ _ _ _ _ _ _ I d). auto.
  - intros d q Hq. rewrite (L2 _ _ Hq). destruct (NEW _ _ Hq) as [H1|[H1 H2]]; [|rewrite H1; cbn [pi_bdry]; split; [discriminate|tauto]]. destruct (INFO _ _ H1) as (-> & _). destruct (OLD _ _ H1) as (_ & -> & _). rewrite (BF _ _ H1). destruct (g_in s a part k s' sub a' g I _ _ H1) as [_ Ik]. tauto.
  - intros SH d q Hq. rewrite (L2 _ _ Hq). destruct (NEW _ _ Hq) as [H1|[H1 H2]].
    + destruct (OLD _ _ H1) as (_ & EQ & _). rewrite EQ. destruct (INFO _ _ H1) as (_ & IM & _). pose proof (po_master _ _ _ _ _ _ _ _ I _ _ H1) as OW. rewrite <- IM in OW. destruct (pi_bdry (sm_p bs q)) eqn:Fq.
      * rewrite (TF _ _ H1 Fq). split; [intro H; replace (_ =? k) with false by lia; auto|]. split; [intros -> _; rewrite Z.eqb_refl; auto|]. intros _ H. exfalso. apply (SH _ _ H1) in Fq. destruct Fq as (j & Nj & Ij). apply (H j Nj). apply (halo_mono s a part j 0); [lia|]. apply halo_0; auto.
      * assert (MK : pi_master (sm_p s2 q) = k). { destruct (Z.eq_dec (pi_master (sm_p s2 q)) k) as [|N]; auto. exfalso. assert (pi_bdry (sm_p bs q) = true) by (apply (SH _ _ H1); destruct OW as (_ & OW & _); eauto). congruence. }
        split; [congruence|]. rewrite (TU _ _ H1 Fq). destruct OT as (_ & _ & OT). destruct (OT q) as (_ & _ & _ & O1 & O2). destruct (Z.ltb_spec 0 ring) as [L|L].
        -- destruct NE as [N|N]; [lia|]. pose proof (tn_iff s a part k s' sub a' g P I bs BF SH N n d q H1 Fq) as TN. split; intros _ H; [apply O2; apply TN; auto|]. destruct O1 as [O1|O1]; auto. exfalso. apply O2 in O1. apply TN in O1. destruct O1 as (j & Nj & Hj). apply (H j); auto.
        -- split; intros _ H; [|destruct O1 as [O1|O1]; auto; apply O2 in O1; destruct O1]. exfalso. destruct H as (j & Nj & Hj). replace n with 0%nat in Hj by lia. apply halo_0 in Hj; auto. assert (pi_bdry (sm_p bs q) = true) by (apply (SH _ _ H1); eauto). congruence.
    + rewrite H1. cbn [pi_master pi_ptype]. rewrite EK in Hq. destruct (t_o _ _ _ _ _ _ _ T _ _ Hq) as [Kq Hh]. destruct (HO n d _ Kq Hh) as ((_ & OW & _) & _). assert (N : pi_master (sm_p s' (o2 q)) <> k) by (intro E; rewrite E in OW; auto). split; [auto|]. split; intro; contradiction.
  - intros x l. split.
    + intro H. destruct (b_keep _ _ _ _ _ _ _ _ B x) as (ks & E & Hk). rewrite E in H. apply in_app_or in H. destruct H as [H|H].
      * apply GL in H. destruct H as (d & Hd & <-). destruct (OLD _ _ Hd) as (H1 & H2 & _). exists d. rewrite EK. split; auto. rewrite <- H2. apply (L2 d). rewrite EK. auto.
      * destruct (Hk _ H) as (_ & d & Hd & Ed). cbn [snd] in *. exists d. rewrite EK. split; auto. rewrite (L2 d) by (rewrite EK; auto). auto.
    + intros (d & Hd & Ed). rewrite (L2 _ _ Hd) in Ed. rewrite EK in Hd. destruct (b_find _ _ _ _ _ _ _ _ B x) as [[_ H]|(d' & l' & Ef & Hl' & _ & El')]; [destruct (H _ _ Hd Ed)|]. assert (l' = l) by (eapply (t_inj _ _ _ _ _ _ _ T); eauto; congruence). subst l'. unfold found in Ef. destruct (find _ _) as [[j y]|] eqn:Ey; [|discriminate Ef]. cbn [option_map snd] in Ef. apply List.find_some in Ey. destruct Ey as [Y1 Y2]. cbn [fst] in Y2. assert (j = k) by lia. inversion Ef. subst. auto.
  - intros x j l N. destruct (b_keep _ _ _ _ _ _ _ _ B x) as (ks & E & Hk). rewrite E, in_app_iff. split; auto. intros [H|H]; auto. destruct (Hk _ H) as (H1 & _). cbn [fst] in H1. congruence.
  - apply (b_nd _ _ _ _ _ _ _ _ B).
  - intros x H. destruct (b_keep _ _ _ _ _ _ _ _ B x) as (ks & E & _). rewrite H in E. symmetry in E. apply app_eq_nil in E. tauto.
Qed.
End Add.
