(** Marking the overlap of a part. *)
From Coq Require Import ZArith Bool Floats.SpecFloat List Lia Arith ZifyBool ZifyNat.
From Verif Require Import Base BaseProofs ListSpec AttModel AttProps TopoModel TopoSpec TopoProofs TopoProofs2 TopoProofs3 TopoProofs5 TopoProps TopoProps2 CellProofs2 ParModel BuildProofs2 FileModel FileSpec FileProofs3 FileProofs4 SendModel SendSpec SendProofs2 PartModel PartSpec PartProofs PartProofs2 PartProofs3 PartProps2 GhostModel GhostSpec GhostProofs GhostProofs2.
Import ListNotations.
Open Scope Z_scope.

Definition o_cell (c : Z) : ost -> ptr -> result ost := if c =? 3 then ov_region else ov_face.
Section Overlap.
Variables (s : smesh) (a : amesh) (bs : smesh).
Hypothesis P : partable s a.
Hypothesis Eb : sm_m bs = sm_m s.
Hypothesis E0 : forall q, pi_ptype (sm_p bs q) = 0.
Notation K := (skind s).
Notation c := (celldim s).
Notation F p := (pi_bdry (sm_p bs p)).

Definition ot (T : ptr -> Prop) (x : smesh) : Prop :=
  sm_m x = sm_m bs /\ sm_sets x = sm_sets bs /\ forall p, pi_bdry (sm_p x p) = F p /\ pi_master (sm_p x p) = pi_master (sm_p bs p) /\ pi_gid (sm_p x p) = pi_gid (sm_p bs p) /\ (pi_ptype (sm_p x p) = 0 \/ pi_ptype (sm_p x p) = 1) /\ (pi_ptype (sm_p x p) = 1 <-> T p).
Lemma ot_iff : forall (T T' : ptr -> Prop) x, (forall p, T p <-> T' p) -> ot T x -> ot T' x.
Proof using. intros T T' x H (A & B & C). split; auto. split; auto. intro p. destruct (C p) as (C1 & C2 & C3 & C4 & C5). rewrite <- H. auto. Qed.
Lemma ot_set : forall (T : ptr -> Prop) x e, ot T x -> ot (fun p => T p \/ p = e) (set_ptype x e POVERLAP).
Proof using.
  intros T x e (A & B & C). split; auto. split; auto. intro p. destruct (C p) as (C1 & C2 & C3 & C4 & C5). unfold set_ptype, set_pi, zupd. cbn [sm_p]. destruct (Z.eqb_spec p e) as [->|N]; cbn [pi_ptype pi_bdry pi_master pi_gid].
  - split; auto. split; auto. split; auto. split; [auto|]. split; auto.
  - split; auto. split; auto. split; auto. split; auto. rewrite C5. tauto.
Qed.
Lemma ot_over : forall (T : ptr -> Prop) x e, ot T x -> ot (fun p => T p \/ p = e /\ F p = false) (overlap x e).
Proof using.
  intros T x e H. unfold overlap. pose proof H as (A & B & C). destruct (C e) as (C1 & _). rewrite C1. destruct (F e) eqn:E.
  - apply ot_iff with T; auto. intro p. split; auto. intros [Q|[-> Q]]; auto. congruence.
  - apply ot_iff with (fun p => T p \/ p = e); [|apply ot_set; auto]. intro p. split; [intros [Q|Q]; auto; subst; auto|tauto].
Qed.

Variable bv : list ptr.
Definition OS (T V : ptr -> Prop) (m : ptr -> bool) (st : ost) : Prop :=
  ot T (o_s st) /\ (forall v, o_vm st v = true -> (In v bv \/ In v (o_next st)) /\ (F v = false -> T v)) /\ (forall v, V v -> o_vm st v = true) /\ (forall v, In v (o_next st) -> V v) /\ o_cm st = m.
Lemma os_iff : forall (T T' V V' : ptr -> Prop) m st, (forall p, T p <-> T' p) -> (forall p, V p <-> V' p) -> OS T V m st -> OS T' V' m st.
Proof using.
  intros T T' V V' m st HT HV (A & B & C & D & E). split; [eapply ot_iff; eauto|]. split; [intros v Hv; destruct (B v Hv); split; auto; intro; apply HT; auto|]. split; [intros v Hv; apply C; apply HV; auto|]. split; auto. intros v Hv. apply HV. auto.
Qed.
Lemma os_set : forall (T T' V : ptr -> Prop) m st x, (forall p, T p -> T' p) -> ot T' x -> OS T V m st -> OS T' V m (o_set st x).
Proof using. intros T T' V m st x HT H (A & B & C & D & E). split; auto. split; [intros v Hv; destruct (B v Hv); split; auto|]. auto. Qed.
Lemma os_m : forall T V m st, OS T V m st -> sm_t (o_s st) = sm_t s.
Proof using Eb. intros T V m st ((A & _) & _). unfold sm_t. rewrite A, Eb. auto. Qed.

Lemma ov_end_ok : forall T V m st e v0 v1 (i : bool), OS T V m st -> a_e a e = Some (true, (v0, v1)) ->
  exists st', ov_end e st (b2z i) = Ok st' /\ OS (fun p => T p \/ p = (if i then v1 else v0) /\ F p = false) (fun p => V p \/ p = (if i then v1 else v0)) m st'.
Proof using All.
  intros T V m st e v0 v1 i O Ee. unfold ov_end. rewrite (os_m _ _ _ _ O).
  assert (EV : ME_Vertex (sm_t s) e (b2z i) = Ok (if i then v1 else v0)).
  { destruct (get_e _ _ e (reach_inv _ _ (pa_reach _ _ P)) ltac:(congruence)) as (y & Hy & Ey). rewrite Ee in Ey. unfold eview in Ey. inversion Ey. subst. unfold ME_Vertex, gete. rewrite Hy. destruct i; reflexivity. }
  rewrite EV. cbn [bind]. set (v := if i then v1 else v0). assert (NN : v <> NULL) by (destruct (pa_ends _ _ P _ _ _ Ee); unfold v; destruct i; auto). replace (v =? NULL) with false by lia.
  destruct O as (A & B & C & D & E). destruct (o_vm st v) eqn:Ev.
  - exists st. split; auto. split; [|split; [|split; [|split]]]; auto.
    + apply ot_iff with T; auto. intro p. split; auto. intros [Q|[-> Q]]; auto. apply B; auto.
    + intros w Hw. destruct (B w Hw). split; auto.
    + intros w [Hw| ->]; auto.
  - eexists. split; [reflexivity|]. split; [|split; [|split; [|split]]]; cbn [o_s o_vm o_next o_cm]; auto.
    + apply ot_over. auto.
    + intros w. unfold zupd. rewrite in_app_iff. destruct (Z.eqb_spec w v) as [EQ|N]; [rewrite EQ; cbn; auto|]. intro Hw. destruct (B w Hw) as [[Q|Q] R]; auto.
    + intros w [Hw|Hw]; unfold zupd; [destruct (w =? v); auto|rewrite Hw, Z.eqb_refl; auto].
    + intros w Hw. apply in_app_or in Hw. destruct Hw as [Hw|[<-|[]]]; auto.
Qed.
Lemma ov_edges_ok : forall T V m st f, OS T V m st -> In f (K 2) ->
  exists st', ov_edges st f = Ok st' /\ OS (fun p => T p \/ F p = false /\ (has_edge a f p \/ v_face a p f)) (fun p => V p \/ v_face a p f) m st'.
Proof using All.
  intros T V m st f O Hf. pose proof Hf as Hf'. apply (pa_f _ _ P) in Hf'. destruct Hf' as [[b|] Ef]; [|destruct (pa_faces _ _ P _ Ef)]. unfold ov_edges. rewrite (os_m _ _ _ _ O).
  pose proof (face_edges_query _ _ _ _ true (reach_inv _ _ (pa_reach _ _ P)) Ef) as EQ. cbn [b2z walk] in EQ. rewrite EQ. cbn [bind].
  assert (HE : forall e, has_edge a f e <-> In e (map fst b)) by (intro e; split; [intros (b' & E' & H); rewrite Ef in E'; inversion E'; subst; auto|intro H; exists b; auto]).
  edestruct (each ptr ost (fun dn x => OS (fun p => T p \/ F p = false /\ (In p dn \/ exists e, In e dn /\ is_end a e p)) (fun p => V p \/ exists e, In e dn /\ is_end a e p) m x)) with (full := map fst b) (st := st) as (st1 & E1 & Q1).
  3: { exists st1. split; [exact E1|]. eapply os_iff; [| |exact Q1]; intro p; cbv beta; unfold v_face.
    - rewrite HE. split; intros [H|[H1 [H2|(e & H2 & H3)]]]; auto; right; split; auto; right; exists e; split; auto; apply HE; auto.
    - split; intros [H|(e & H2 & H3)]; auto; right; exists e; split; auto; apply HE; auto. }
  2: { eapply os_iff; [| |exact O]; intro p; cbv beta; split; auto; [intros [H|[_ [[]|(e & [] & _)]]]; auto|intros [H|(e & [] & _)]; auto]. }
  intros dn e rest x Efl O1. assert (He : has_edge a f e) by (apply HE; rewrite Efl; apply in_or_app; right; left; auto).
  destruct (edge_kind s a P _ _ He) as [_ Ke]. pose proof Ke as Ke'. apply (pa_e _ _ P) in Ke'. destruct Ke' as [[v0 v1] Ee].
  set (st1 := o_set x (overlap (o_s x) e)). assert (O2 := os_set _ _ _ _ _ _ (fun p H => or_introl H) (ot_over _ _ e (proj1 O1)) O1). fold st1 in O2.
  cbn [foldM]. destruct (ov_end_ok _ _ _ _ e v0 v1 false O2 Ee) as (st2 & E2 & O3). cbn [b2z] in E2. rewrite E2. cbn [bind]. destruct (ov_end_ok _ _ _ _ e v0 v1 true O3 Ee) as (st3 & E3 & O4). cbn [b2z] in E3. rewrite E3. cbn [bind]. exists st3. split; auto.
  assert (IE : forall p, is_end a e p <-> p = v0 \/ p = v1) by (intro p; split; [intros (x0 & x1 & E' & H); rewrite Ee in E'; inversion E'; subst; destruct H; auto|intros H; exists v0, v1; split; auto; destruct H; auto]).
  eapply os_iff; [| |exact O4]; intro p; cbv beta.
  - split.
    + intros [[[[H|[H1 H2]]|[H1 H2]]|[H1 H2]]|[H1 H2]]; auto; right; split; auto.
      * destruct H2 as [H2|(e' & H2 & H3)]; [left|right; exists e'; split; auto]; apply in_or_app; auto.
      * left. subst. apply in_or_app. cbn. auto.
      * right. exists e. split; [apply in_or_app; cbn; auto|apply IE; auto].
      * right. exists e. split; [apply in_or_app; cbn; auto|apply IE; auto].
    + intros [H|[H1 [H2|(e' & H2 & H3)]]]; auto; apply in_app_or in H2.
      * destruct H2 as [H2|[<-|[]]]; auto. left. left. left. right. split; auto.
      * destruct H2 as [H2|[<-|[]]]; [left; left; left; right; split; [auto|right; exists e'; auto]|]. apply IE in H3. destruct H3; auto.
  - split.
    + intros [[[H|(e' & H2 & H3)]|H]|H]; auto; right; [exists e'; split; auto; apply in_or_app; auto|exists e|exists e]; (split; [apply in_or_app; cbn; auto|apply IE; auto]).
    + intros [H|(e' & H2 & H3)]; auto. apply in_app_or in H2. destruct H2 as [H2|[<-|[]]]; [left; left; right; exists e'; auto|]. apply IE in H3. destruct H3; auto.
Qed.
(** A cell: it and what bounds it. *)
Lemma o_cell_ok : forall T V m st x, OS T V m st -> In x (cells s) ->
  exists st', o_cell c st x = Ok st' /\ OS (fun p => T p \/ p = x \/ F p = false /\ bounds a p x) (fun p => V p \/ In p (K 0) /\ bounds a p x) (zupd m x true) st'.
Proof using All.
  intros T V m st x O Hx. pose proof (KA s a P) as KA0.
  assert (O1 : OS (fun p => T p \/ p = x) V (zupd m x true) (ov_mark st x)).
  { destruct O as (A & B & C & D & E). split; [apply ot_set; auto|]. split; [intros v Hv; destruct (B v Hv); split; auto|]. split; auto. split; auto. cbn [ov_mark o_cm]. rewrite E. auto. }
  unfold o_cell, cells in *. destruct (c_23 s) as [C|C]; rewrite C in *; cbn [Z.eqb Pos.eqb].
  - unfold ov_face. destruct (ov_edges_ok _ _ _ _ x O1 Hx) as (st1 & E1 & O2). exists st1. split; auto. eapply os_iff; [| |exact O2]; intro p; cbv beta.
    + split.
      * intros [[H|H]|[H1 H2]]; auto. right. right. split; auto. destruct H2 as [H2|H2]; [apply bd_one; right; left; auto|]. destruct H2 as (e & H2 & H3). eapply bd_more; [left; exact H2|]. apply bd_one. right. left. auto.
      * intros [H|[H|[H1 H2]]]; auto. right. split; auto. inversion H2 as [? ? U|? y ? U H3]; subst.
        -- left. destruct U as [U|[U|[d U]]]; auto; exfalso; [destruct (end_kind s a P _ _ U) as [B _]|destruct (face_kind s a P _ _ _ U) as [B _]]; pose proof (KA0 _ _ _ Hx B); lia.
        -- right. destruct (bounds_low s a P _ _ H2) as [d Hd]. pose proof (up_kind s a P _ _ _ Hd U) as Hy. destruct (bounds_kind s a P _ _ _ Hy H3) as (d' & L & Hd'). pose proof (KA0 _ _ _ Hx Hd'). assert (d = 0) by (destruct (kind_cases _ _ _ Hd) as [-> | [-> | [-> | ->]]]; lia). subst d. apply bounds_face with s; auto.
    + split; intros [H|H]; auto; right.
      * assert (Hp : In p (K 0)) by (destruct H as (e & H & _); destruct (end_kind s a P _ _ H); auto). split; auto. apply (bounds_face s a P); auto.
      * apply (bounds_face s a P); tauto.
  - pose proof Hx as Hx'. apply (pa_r _ _ P) in Hx'. destruct Hx' as [[b|] Ex]; [|destruct (pa_regions _ _ P _ Ex)]. unfold ov_region. cbv zeta. rewrite (os_m _ _ _ _ O1).
    assert (EF : MR_Faces (sm_t s) x = Ok (map fst b)). { destruct (region_rep _ _ _ _ (pa_reach _ _ P) Ex) as (y & Hy & Hl & HD). unfold MR_Faces, getr. rewrite Hy. cbn [bind]. rewrite Hl. reflexivity. }
    rewrite EF. cbn [bind].
    assert (HE : forall f, (exists d, has_face a x f d) <-> In f (map fst b)). { intro f. split; [intros (d & b' & E' & H); rewrite Ex in E'; inversion E'; subst; apply (in_map fst _ _ H)|]. intro H. apply in_map_iff in H. destruct H as ([f' d] & <- & H). exists d, b. auto. }
    edestruct (each ptr ost (fun dn y => OS (fun p => (T p \/ p = x) \/ F p = false /\ (In p dn \/ exists f, In f dn /\ (has_edge a f p \/ v_face a p f))) (fun p => V p \/ exists f, In f dn /\ v_face a p f) (zupd m x true) y)) with (full := map fst b) (st := ov_mark st x) as (st1 & E1 & Q1).
    3: { exists st1. split; [exact E1|].
      assert (BB : forall p, bounds a p x <-> In p (map fst b) \/ exists f, In f (map fst b) /\ (has_edge a f p \/ v_face a p f)).
      { intro p. split.
        - intro H. inversion H as [? ? U|? y ? U H3]; subst.
          + left. apply HE. destruct U as [U|[U|U]]; auto; exfalso; [destruct (end_kind s a P _ _ U) as [B _]|destruct (edge_kind s a P _ _ U) as [B _]]; pose proof (KA0 _ _ _ Hx B); lia.
          + right. destruct (bounds_low s a P _ _ H) as [d Hd]. pose proof (up_kind s a P _ _ _ Hd U) as Hy. inversion H3 as [? ? U2|? z ? U2 H4]; subst.
            * exists y. split; [apply HE; destruct U2 as [U2|[U2|U2]]; auto; exfalso; [destruct (end_kind s a P _ _ U2) as [B _]|destruct (edge_kind s a P _ _ U2) as [B _]]; pose proof (KA0 _ _ _ Hx B); lia|]. left. assert (In y (K 2)) by (destruct U2 as [U2|[U2|[e U2]]]; [destruct (end_kind s a P _ _ U2) as [B _]; pose proof (KA0 _ _ _ Hx B); lia|destruct (edge_kind s a P _ _ U2) as [B _]; pose proof (KA0 _ _ _ Hx B); lia|destruct (face_kind s a P _ _ _ U2); auto]).
              destruct U as [U|[U|[e U]]]; auto; exfalso; [destruct (end_kind s a P _ _ U) as [B _]|destruct (face_kind s a P _ _ _ U) as [B _]]; pose proof (KA0 _ _ _ H0 B); lia.
            * pose proof (up_kind s a P _ _ _ Hy U2) as Hz. destruct (bounds_kind s a P _ _ _ Hz H4) as (d' & L & Hd'). pose proof (KA0 _ _ _ Hx Hd'). assert (d = 0) by (destruct (kind_cases _ _ _ Hd) as [-> | [-> | [-> | ->]]]; lia). subst d. apply (bounds_region s a P) in H; auto. destruct H as (e & He & f & d & Hf & Hr). exists f. split; [apply HE; eauto|]. right. exists e. auto.
        - intros [H|(f & Hf & H)]; [apply bd_one; right; right; apply HE; auto|]. apply HE in Hf. assert (U : bounds a f x) by (apply bd_one; right; right; auto). destruct H as [H|(e & He & H)]; [eapply bd_more; [right; left; exact H|auto]|]. eapply bd_more; [left; exact He|]. eapply bd_more; [right; left; exact H|auto]. }
      eapply os_iff; [| |exact Q1]; intro p; cbv beta; [rewrite BB; tauto|]. split; intros [H|H]; auto; right.
      - destruct H as (f & Hf & H). assert (Hp : In p (K 0)) by (destruct H as (e & H & _); destruct (end_kind s a P _ _ H); auto). split; auto. apply BB. right. eauto.
      - destruct H as [Hp H]. apply (bounds_region s a P) in H; auto. destruct H as (e & He & f & d & Hf & Hr). exists f. split; [apply HE; eauto|]. exists e. auto. }
    2: { eapply os_iff; [| |exact O1]; intro p; cbv beta; split; auto; [intros [H|[_ [[]|(e & [] & _)]]]; auto|intros [H|(e & [] & _)]; auto]. }
    intros dn f rest y Efl O2. assert (Hf : exists d, has_face a x f d) by (apply HE; rewrite Efl; apply in_or_app; right; left; auto). destruct Hf as [d Hf]. destruct (face_kind s a P _ _ _ Hf) as [_ Kf].
    assert (O3 := os_set _ _ _ _ _ _ (fun p H => or_introl H) (ot_over _ _ f (proj1 O2)) O2). destruct (ov_edges_ok _ _ _ _ f O3 Kf) as (st2 & E2 & O4). exists st2. split; [exact E2|]. eapply os_iff; [| |exact O4]; intro p; cbv beta.
    + split.
      * intros [[[H|[H1 H2]]|[H1 H2]]|[H1 H2]]; auto; right; split; auto; rewrite in_app_iff.
        -- destruct H2 as [H2|(f' & H2 & H3)]; auto. right. exists f'. rewrite in_app_iff. auto.
        -- subst. cbn. auto.
        -- right. exists f. rewrite in_app_iff. cbn. auto.
      * intros [H|[H1 H2]]; auto. destruct H2 as [H2|(f' & H2 & H3)]; apply in_app_or in H2; destruct H2 as [H2|[<-|[]]]; [left; left; right; auto|left; right; auto|left; left; right; split; [auto|right; exists f'; auto]|right; auto].
    + split.
      * intros [[H|(f' & H2 & H3)]|H]; auto; right; [exists f'|exists f]; rewrite in_app_iff; cbn; auto.
      * intros [H|(f' & H2 & H3)]; auto. apply in_app_or in H2. destruct H2 as [H2|[<-|[]]]; auto. left. right. exists f'. auto.
Qed.
End Overlap.

Section Layers.
Variables (s : smesh) (a : amesh) (bs : smesh).
Hypothesis P : partable s a.
Hypothesis Eb : sm_m bs = sm_m s.
Hypothesis E0 : forall q, pi_ptype (sm_p bs q) = 0.
Hypothesis HC : forall v, In v (skind s 0) -> exists x, In x (cells s) /\ bounds a v x.
Notation K := (skind s).
Notation c := (celldim s).
Notation F p := (pi_bdry (sm_p bs p)).
(** The cells in [n] layers from the flagged vertices inwards. *)
Fixpoint inn (n : nat) (q : ptr) : Prop :=
  match n with
  | O => False
  | S n => inn n q \/ In q (cells s) /\ exists v, In v (K 0) /\ bounds a v q /\ (F v = true \/ exists q', inn n q' /\ bounds a v q')
  end.
Definition Tn (n : nat) (p : ptr) : Prop := inn n p \/ F p = false /\ exists x, inn n x /\ bounds a p x.
Definition near (n : nat) (v : ptr) : Prop := In v (K 0) /\ (F v = true \/ exists x, inn n x /\ bounds a v x).
Lemma inn_cell : forall n q, inn n q -> In q (cells s).
Proof using. induction n as [|n IH]; intros q; cbn [inn]; [intros []|intros [H|[H _]]; auto]. Qed.
Record ORI (r : nat) (st : ost) (bv : list ptr) : Prop := mkORI {
  or_t : ot bs (Tn r) (o_s st);
  or_vm : forall v, o_vm st v = true -> In v bv;
  or_cm : forall x, In x (cells s) -> (o_cm st x = true <-> inn r x);
  or_bv : forall v, In v bv -> near r v;
  or_sat : forall v, near r v -> In v bv \/ forall x, In x (cells s) -> bounds a v x -> inn r x }.
Lemma ov_ring_ok : forall r st bv i, ORI r st bv -> exists st2 bv2, ov_ring (up_of c) (o_cell c) (st, bv) i = Ok (st2, bv2) /\ ORI (S r) st2 bv2.
Proof using All.
  intros r st bv i R. unfold ov_ring. set (cm0 := o_cm st). set (st0 := mkO (o_s st) [] (o_vm st) cm0).
  set (TW := fun (W : ptr -> Prop) p => Tn r p \/ exists x, In x (cells s) /\ W x /\ (p = x \/ F p = false /\ bounds a p x)).
  set (VW := fun (W : ptr -> Prop) v => exists x, In x (cells s) /\ W x /\ cm0 x = false /\ In v (K 0) /\ bounds a v x).
  set (Q := fun (W : ptr -> Prop) x => exists m, OS bs bv (TW W) (VW W) m x /\ forall y, In y (cells s) -> (m y = true <-> inn r y \/ W y)).
  assert (QW : forall (W W' : ptr -> Prop) x, (forall y, In y (cells s) -> (W y <-> W' y)) -> Q W x -> Q W' x).
  { intros W W' x E (m & O & M). exists m. split.
    - eapply os_iff; [| |exact O]; intro p; unfold TW, VW.
      + split; (intros [H|(y & H1 & H2 & H3)]; auto; right; exists y; split; auto; split; auto; apply (E y); auto).
      + split; intros (y & H1 & H2 & H3); exists y; split; auto; split; auto; apply (E y); auto.
    - intros y Hy. rewrite (M y Hy), (E y Hy). reflexivity. }
  edestruct (each ptr ost (fun dn x => Q (fun y => exists v, In v dn /\ bounds a v y) x)) with (full := bv) (st := st0) as (st1 & E1 & Q1).
  3: { rewrite E1. cbn [bind]. eexists _, _. split; [reflexivity|]. destruct Q1 as (m & (A & B & C & D & E) & M).
    assert (CW : forall y, In y (cells s) -> (inn r y \/ (exists v, In v bv /\ bounds a v y) <-> inn (S r) y)).
    { intros y Hy. cbn [inn]. split.
      - intros [H|(v & Hv & Hb)]; auto. right. split; auto. destruct (or_bv _ _ _ R v Hv) as [Kv N]. exists v. auto.
      - intros [H|[_ (v & Kv & Bv & N)]]; auto. destruct (or_sat _ _ _ R v (conj Kv N)) as [H|H]; [right; eauto|left; auto]. }
    constructor; cbn [o_s o_vm o_cm o_next].
    - eapply ot_iff; [|exact A]. intro p. unfold TW, Tn. split.
      + intros [[H|(H1 & x & H2 & H3)]|(x & H1 & H2 & H3)]; [left; apply CW; auto; eapply inn_cell; eauto|right; split; auto; exists x; split; auto; apply CW; auto; eapply inn_cell; eauto|].
        assert (inn (S r) x) by (apply CW; auto). destruct H3 as [->|[H3 H4]]; auto. right. split; auto. eauto.
      + intros [H|(H1 & x & H2 & H3)].
        * pose proof (inn_cell _ _ H) as Hc. apply CW in H; auto. destruct H as [H|H]; auto. right. exists p. auto.
        * pose proof (inn_cell _ _ H2) as Hc. apply CW in H2; auto. destruct H2 as [H|H]; [left; right; split; auto; eauto|]. right. exists x. auto.
    - intros v. rewrite mark_all_in. destruct (existsb (Z.eqb v) bv) eqn:Ex; [discriminate|]. intro Hv. destruct (B v Hv) as [[H|H] _]; auto. apply inx in H. congruence.
    - intros x Hx. rewrite E, (M x Hx). apply CW. auto.
    - intros v Hv. apply D in Hv. destruct Hv as (x & H1 & H2 & _ & H3 & H4). split; auto. right. exists x. split; auto. apply CW; auto.
    - intros v (Kv & N). assert (OLD : near r v -> In v (o_next st1) \/ (forall x, In x (cells s) -> bounds a v x -> inn (S r) x)).
      { intro H. right. intros x Hx Bx. apply CW; auto. destruct (or_sat _ _ _ R v H) as [H'|H']; [right; eauto|left; auto]. }
      destruct N as [N|(x & H1 & H2)]; [apply OLD; split; auto|]. pose proof (inn_cell _ _ H1) as Hx. destruct (cm0 x) eqn:Ec; [apply (or_cm _ _ _ R x Hx) in Ec; apply OLD; split; auto; right; eauto|].
      apply CW in H1; auto. destruct H1 as [H1|H1]; [apply OLD; split; auto; right; eauto|]. assert (VV : o_vm st1 v = true) by (apply C; exists x; auto). destruct (B v VV) as [[H|H] _]; auto. apply OLD. apply (or_bv _ _ _ R). auto. }
  2: { exists cm0. split.
    - split; [|split; [|split; [|split]]]; cbn [st0 o_s o_vm o_next o_cm]; auto.
      + eapply ot_iff; [|apply R]. intro p. unfold TW. split; auto. intros [H|(x & _ & (v & [] & _) & _)]; auto.
      + intros v Hv. apply (or_vm _ _ _ R) in Hv. split; auto. intro Hf. left. destruct (or_bv _ _ _ R v Hv) as [_ [N|N]]; [congruence|]. right. auto.
      + intros v (y & _ & (w & [] & _) & _).
      + intros v [].
    - intros y Hy. unfold cm0. rewrite (or_cm _ _ _ R y Hy). split; auto. intros [H|(v & [] & _)]; auto. }
  intros dn v rest x Ef Qx. assert (Hv : In v bv) by (rewrite Ef; apply in_or_app; right; left; auto). destruct (or_bv _ _ _ R v Hv) as [Kv _].
  destruct (up_ok s a P v Kv) as (oo & Eo & Ao). assert (NE : exists l, oo = Some l). { destruct oo as [l|]; [eauto|]. exfalso. destruct (HC v Kv) as (z & Hz & Bz). apply (Ao z). auto. }
  destruct NE as [l ->]. destruct Ao as (_ & _ & Al).
  assert (EP : sm_t (o_s x) = sm_t s) by (destruct Qx as (m & O & _); apply (os_m s bs Eb bv _ _ _ _ O)). rewrite EP, Eo. cbn [bind nn].
  edestruct (each ptr ost (fun dn' x => Q (fun y => (exists v, In v dn /\ bounds a v y) \/ In y dn') x)) with (full := l) (st := x) as (x1 & E1 & Q1).
  3: { exists x1. split; [exact E1|]. eapply QW; [|exact Q1]. intros y Hy. cbv beta. rewrite (Al y). split.
    - intros [(w & Hw & Bw)|[_ Bw]]; [exists w|exists v]; split; auto; apply in_or_app; cbn; auto.
    - intros (w & Hw & Bw). apply in_app_or in Hw. destruct Hw as [Hw|[<-|[]]]; [left; exists w; auto|auto]. }
  2: { apply (QW (fun y => exists v, In v dn /\ bounds a v y)); auto. intros y Hy. cbn. tauto. }
  clear x Qx EP. intros dn' y rest' x Ef' (m & O & M). assert (Hy : In y l) by (rewrite Ef'; apply in_or_app; right; left; auto). apply Al in Hy. destruct Hy as [Ky By].
  set (W := fun y => (exists v, In v dn /\ bounds a v y) \/ In y dn').
  assert (M' : forall z, In z (cells s) -> (m z = true <-> inn r z \/ W z)) by exact M. clear M. rename M' into M. assert (O' : OS bs bv (TW W) (VW W) m x) by exact O. clear O. rename O' into O.
  assert (EW : forall z, (W z \/ z = y) <-> ((exists v, In v dn /\ bounds a v z) \/ In z (dn' ++ [y]))) by (intro z; unfold W; rewrite in_app_iff; cbn; intuition).
  assert (Em : o_cm x = m) by apply O. rewrite Em. destruct (m y) eqn:Ey.
  - exists x. split; auto. apply (QW (fun z => W z \/ z = y)); [intros; apply EW|]. exists m. apply M in Ey; auto. split.
    + eapply os_iff; [| |exact O]; intro p; unfold TW, VW.
      * split; [intros [H|(z & H1 & H2 & H3)]; auto; right; exists z; auto|]. intros [H|(z & H1 & [H2| ->] & H3)]; auto; [right; exists z; auto|]. destruct Ey as [Ey|Ey]; [|right; exists y; auto]. left. destruct H3 as [->|[H3 H4]]; [left; auto|right; split; auto; exists y; auto].
      * split; [intros (z & H1 & H2 & H3); exists z; auto|]. intros (z & H1 & [H2| ->] & H3 & H4); [exists z; auto|]. destruct Ey as [Ey|Ey]; [|exists y; auto]. apply (or_cm _ _ _ R) in Ey; auto. unfold cm0 in H3. congruence.
    + intros z Hz. rewrite (M z Hz). split; [tauto|]. intros [H|[H| ->]]; auto.
  - destruct (o_cell_ok s a bs P Eb E0 bv _ _ _ _ y O Ky) as (x1 & E1 & O1). exists x1. split; auto. apply (QW (fun z => W z \/ z = y)); [intros; apply EW|]. exists (zupd m y true). assert (C0 : cm0 y = false). { destruct (cm0 y) eqn:E; auto. apply (or_cm _ _ _ R) in E; auto. assert (m y = true) by (apply M; auto). congruence. }
    split.
    + eapply os_iff; [| |exact O1]; intro p; unfold TW, VW; cbv beta.
      * split; [intros [[H|(z & H1 & H2 & H3)]|H]; auto; right; [exists z; auto|exists y; auto]|]. intros [H|(z & H1 & [H2| ->] & H3)]; auto. left. right. exists z. auto.
      * split; [intros [(z & H1 & H2 & H3)|H]; [exists z; auto|exists y; destruct H; auto 8]|]. intros (z & H1 & [H2| ->] & H3 & H4); [left; exists z; auto|auto].
    + intros z Hz. unfold zupd. destruct (Z.eqb_spec z y) as [EQ|NE]; [rewrite EQ; split; auto|]. rewrite (M z Hz). split; [tauto|]. intros [H|[H|H]]; auto. congruence.
Qed.
Lemma ov_all_ok : forall ring, exists x, ov_all (up_of c) (o_cell c) ring bs = Ok x /\ ot bs (Tn (Z.to_nat ring)) x.
Proof using All.
  intro ring. unfold ov_all. assert (EZ : length (zrange 0 ring) = Z.to_nat ring) by (unfold zrange; rewrite map_length, seq_length; lia).
  assert (G : forall l r st bv, ORI r st bv -> exists st2 bv2, foldM (ov_ring (up_of c) (o_cell c)) (st, bv) l = Ok (st2, bv2) /\ ORI (r + length l) st2 bv2).
  { induction l as [|i l IH]; intros r st bv R; cbn [foldM length]; [exists st, bv; rewrite Nat.add_0_r; auto|]. destruct (ov_ring_ok r st bv i R) as (st1 & bv1 & E1 & R1). rewrite E1. cbn [bind]. replace (r + S (length l))%nat with (S r + length l)%nat by lia. apply IH. auto. }
  rewrite Eb. change (fm_v (sm_m s)) with (K 0).
  destruct (G (zrange 0 ring) 0%nat (mkO bs [] (mark_all true (filter (fun v => F v) (K 0)) (fun _ => false)) (fun _ => false)) (filter (fun v => F v) (K 0))) as (st2 & bv2 & E2 & R2).
  - constructor; cbn [o_s o_vm o_cm].
    + split; auto. split; auto. intro p. rewrite E0. split; auto. split; auto. split; auto. split; auto. split; [discriminate|]. intros [[]|(_ & x & [] & _)].
    + intros v. rewrite mark_all_in. destruct (existsb _ _) eqn:E; [intros _; apply inx; auto|discriminate].
    + intros x Hx. split; [discriminate|intros []].
    + intros v Hv. apply filter_In in Hv. split; tauto.
    + intros v [Kv [N|(x & [] & _)]]. left. apply filter_In. auto.
  - rewrite E2. cbn [bind]. exists (o_s st2). split; auto. rewrite EZ in R2. apply R2.
Qed.
End Layers.
