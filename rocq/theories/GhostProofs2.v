(** Layers of cells, and copying one layer. *)
From Coq Require Import ZArith Bool Floats.SpecFloat List Lia Arith ZifyBool ZifyNat.
From Verif Require Import Base BaseProofs ListSpec AttModel AttProps TopoModel TopoSpec TopoProofs TopoProofs2 TopoProofs3 TopoProofs5 TopoProps TopoProps2 CellProofs2 ParModel BuildProofs2 FileModel FileSpec FileProofs3 FileProofs4 SendModel SendSpec SendProofs2 PartModel PartSpec PartProofs PartProofs2 PartProofs3 PartProps2 GhostModel GhostSpec GhostProofs.
Import ListNotations.
Open Scope Z_scope.

(** ** Cells and what bounds them *)
Definition up_of (c : Z) : topo -> ptr -> result (option (list ptr)) := if c =? 3 then MV_Regions else MV_Faces.
Section Cells.
Variables (s : smesh) (a : amesh).
Hypothesis P : partable s a.
Notation K := (skind s).
Notation c := (celldim s).
Lemma bounds_kind : forall d q x, In q (K d) -> bounds a q x -> exists d', d < d' /\ In x (K d').
Proof using P.
  intros d q x Hq H. revert d Hq. induction H as [g x U|g y x U H IH]; intros d Hq; pose proof (up_kind s a P _ _ _ Hq U) as K1; [exists (d + 1); split; [lia|auto]|]. destruct (IH _ K1) as (d' & L & Hx). exists d'. split; [lia|auto].
Qed.
Lemma bounds_low : forall q x, bounds a q x -> exists d, In q (K d).
Proof using P.
  intros q x H. assert (U : exists y, up a q y) by (destruct H; eauto). destruct U as [y [U|[U|[e U]]]]; [apply (end_kind s a P) in U|apply (edge_kind s a P) in U|apply (face_kind s a P) in U]; destruct U; eauto.
Qed.
Lemma bounds_face : forall v f, In v (K 0) -> In f (K 2) -> (bounds a v f <-> v_face a v f).
Proof using P.
  intros v f Hv Hf. pose proof (KA s a P) as KA0. split.
  - intro H. inversion H as [g x U|g y x U H2]; subst.
    + pose proof (KA0 _ _ _ Hf (up_kind s a P _ _ _ Hv U)). lia.
    + pose proof (up_kind s a P _ _ _ Hv U) as K1. inversion H2 as [g x U2|g z x U2 H3]; subst.
      * destruct U as [U|[U|[e U]]]; [|destruct (edge_kind s a P _ _ U) as [_ B]; pose proof (KA0 _ _ _ Hv B); lia|destruct (face_kind s a P _ _ _ U) as [_ B]; pose proof (KA0 _ _ _ Hv B); lia].
        exists y. split; auto. destruct U2 as [U2|[U2|[e U2]]]; auto; exfalso; [destruct (end_kind s a P _ _ U2) as [_ B]|destruct (face_kind s a P _ _ _ U2) as [_ B]]; pose proof (KA0 _ _ _ K1 B); lia.
      * pose proof (up_kind s a P _ _ _ K1 U2) as K2. destruct (bounds_kind _ _ _ K2 H3) as (d & L & B). pose proof (KA0 _ _ _ Hf B). lia.
  - intros (e & He & Hb). eapply bd_more; [left; exact He|]. apply bd_one. right. left. auto.
Qed.
Lemma bounds_region : forall v r, In v (K 0) -> In r (K 3) -> (bounds a v r <-> v_region a v r).
Proof using P.
  intros v r Hv Hr. pose proof (KA s a P) as KA0. split.
  - intro H. inversion H as [g x U|g y x U H2]; subst.
    + pose proof (KA0 _ _ _ Hr (up_kind s a P _ _ _ Hv U)). lia.
    + pose proof (up_kind s a P _ _ _ Hv U) as K1. inversion H2 as [g x U2|g z x U2 H3]; subst.
      * pose proof (KA0 _ _ _ Hr (up_kind s a P _ _ _ K1 U2)). lia.
      * pose proof (up_kind s a P _ _ _ K1 U2) as K2. inversion H3 as [g x U3|g w x U3 H4]; subst.
        -- destruct U as [U|[U|[e U]]]; [|destruct (edge_kind s a P _ _ U) as [_ B]; pose proof (KA0 _ _ _ Hv B); lia|destruct (face_kind s a P _ _ _ U) as [_ B]; pose proof (KA0 _ _ _ Hv B); lia].
           destruct U2 as [U2|[U2|[e U2]]]; [destruct (end_kind s a P _ _ U2) as [_ B]; pose proof (KA0 _ _ _ K1 B); lia| |destruct (face_kind s a P _ _ _ U2) as [_ B]; pose proof (KA0 _ _ _ K1 B); lia].
           destruct U3 as [U3|[U3|[e U3]]]; [destruct (end_kind s a P _ _ U3) as [_ B]; pose proof (KA0 _ _ _ K2 B); lia|destruct (edge_kind s a P _ _ U3) as [_ B]; pose proof (KA0 _ _ _ K2 B); lia|].
           exists y. split; auto. exists z, e. auto.
        -- pose proof (up_kind s a P _ _ _ K2 U3) as K3. destruct (bounds_kind _ _ _ K3 H4) as (d & L & B). pose proof (KA0 _ _ _ Hr B). lia.
  - intros (e & He & f & d & Hb & Hf). eapply bd_more; [left; exact He|]. eapply bd_more; [right; left; exact Hb|]. apply bd_one. right. right. eauto.
Qed.
Lemma up_ok : forall v, In v (K 0) -> exists oo, up_of c (sm_t s) v = Ok oo /\ answers oo (fun x => In x (cells s) /\ bounds a v x).
Proof using P.
  intros v Hv. assert (LV : a_v a v <> None) by (apply (pa_v _ _ P) in Hv; unfold live_v in Hv; congruence). unfold up_of, cells. destruct (c_23 s) as [-> | ->]; cbn [Z.eqb Pos.eqb].
  - destruct (C26_vertex_faces _ _ _ (pa_reach _ _ P) LV) as (oo & E & A). exists oo. split; auto. assert (X : forall x, v_face a v x <-> In x (K 2) /\ bounds a v x).
    { intro x. split; [intro H; assert (In x (K 2)) by (destruct H as (e & _ & H); apply (edge_kind s a P) in H; tauto); split; auto; apply bounds_face; auto|intros [H1 H2]; apply bounds_face; auto]. }
    destruct oo as [l|]; cbn in *; [destruct A as (A1 & A2 & A3); split; auto; split; auto; intro x; rewrite A3; auto|]. intros x H. apply (A x). apply X. auto.
  - destruct (C26_vertex_regions _ _ _ (pa_reach _ _ P) LV) as (oo & E & A). exists oo. split; auto. assert (X : forall x, v_region a v x <-> In x (K 3) /\ bounds a v x).
    { intro x. split; [intro H; assert (In x (K 3)) by (destruct H as (e & _ & f & d & _ & H); apply (face_kind s a P) in H; tauto); split; auto; apply bounds_region; auto|intros [H1 H2]; apply bounds_region; auto]. }
    destruct oo as [l|]; cbn in *; [destruct A as (A1 & A2 & A3); split; auto; split; auto; intro x; rewrite A3; auto|]. intros x H. apply (A x). apply X. auto.
Qed.
Lemma cell_top : forall x y, In x (cells s) -> ~ bounds a x y.
Proof using P.
  intros x y Hx H. destruct (bounds_kind _ _ _ Hx H) as (d & L & Hy). destruct (kind_cases _ _ _ Hy) as [-> | [-> | [-> | ->]]]; destruct (c_23 s) as [E|E]; rewrite E in L; try lia. unfold celldim in E. destruct (K 3) eqn:E3; [destruct Hy|discriminate E].
Qed.
End Cells.

(** ** Layers *)
Section Layers.
Variables (s : smesh) (a : amesh) (part : list Z) (k : Z).
Hypothesis P : partable s a.
Notation K := (skind s).
Notation wi := (within s a part k).
Lemma within_cell : forall n x, wi n x -> In x (cells s).
Proof using P. intros n x. revert x. induction n as [|n IH]; intros x; cbn [within]; [intros (i & E & _); eapply nth_error_In; eauto|]. intros [H|[H _]]; auto. Qed.
Lemma within_mono : forall n m x, (n <= m)%nat -> wi n x -> wi m x.
Proof using. intros n m x L H. induction L; auto. cbn [within]. auto. Qed.
Lemma halo_mono : forall n m x, (n <= m)%nat -> halo s a part k n x -> halo s a part k m x.
Proof using. intros n m x L (y & H & Q). exists y. split; auto. eapply within_mono; eauto. Qed.
Lemma halo_down : forall n x y, halo s a part k n y -> bounds a x y -> halo s a part k n x.
Proof using P. intros n x y (z & H & Q) B. exists z. split; auto. right. destruct Q as [->|Q]; auto. eapply bounds_trans; eauto. Qed.
Lemma halo_cell : forall n x, In x (cells s) -> halo s a part k n x -> wi n x.
Proof using P. intros n x Hx (z & H & [->|Q]); auto. destruct (cell_top s a P _ _ Hx Q). Qed.
Lemma halo_0 : forall x, halo s a part k 0 x <-> inpart s a part k x.
Proof using P.
  intro x. split.
  - intros (y & (i & E1 & E2) & Q). assert (inpart s a part k y) by (eapply ip_cell; eauto). destruct Q as [->|Q]; auto. eapply inpart_down; eauto.
  - intro H. destruct (inpart_cell _ _ _ _ _ H) as (i & y & E1 & E2 & Q). exists y. split; auto. exists i. auto.
Qed.
End Layers.

(** ** Copying layers *)
Lemma mark_all_in : forall b l m v, mark_all b l m v = (if existsb (Z.eqb v) l then b else m v).
Proof.
  intros b l. unfold mark_all. induction l as [|w l IH]; intros m v; cbn [fold_left existsb]; auto. rewrite IH. unfold zupd. destruct (v =? w), (existsb (Z.eqb v) l); auto.
Qed.
Lemma inx : forall v l, existsb (Z.eqb v) l = true <-> In v l.
Proof. intros v l. rewrite existsb_exists. split; [intros (x & H & E); assert (v = x) by lia; subst; auto|intro H; exists v; split; auto; lia]. Qed.

Section Rings.
Variables (s : smesh) (a : amesh) (part : list Z) (k : Z) (s' sub0 : smesh) (o0 : ptr -> ptr) (g2l0 : ptr -> list (Z * ptr)).
Hypothesis P : partable s a.
Notation K := (skind s).
Notation c := (celldim s).
Notation wi := (within s a part k).
Hypothesis Hs' : sm_m s' = sm_m s.
Hypothesis Hfull : forall n d g, In g (K d) -> halo s a part k n g -> g2l0 g <> [].
Hypothesis HM : forall n d g, In g (K d) -> halo s a part k n g -> 0 <= pi_master (sm_p s' g) < 2 ^ 29.
Notation TIn n := (TI s a (halo s a part k n)).
Notation SIn n := (SI s a k s' sub0 o0 g2l0 (halo s a part k n)).
Notation GSn n := (GS s a k s' sub0 o0 g2l0 (halo s a part k n)).

Lemma si_mono : forall n m o st a', (n <= m)%nat -> SIn n [] o st a' -> SIn m [] o st a'.
Proof using All. intros n m o st a' L [T B]. split; auto. destruct T. constructor; auto. intros d q H. destruct (t_o d q H). split; auto. eapply halo_mono; eauto. Qed.
(** What bounds something copied is copied. *)
Lemma copied_down : forall n o sub a' x y q, TIn n [] o sub a' -> bounds a x y -> (exists d, In q (skind sub d)) -> o q = y -> exists d q', In q' (skind sub d) /\ o q' = x.
Proof using P.
  intros n o sub a' x y q T H. revert q.
  assert (U : forall x y q, up a x y -> (exists d, In q (skind sub d)) -> o q = y -> exists d q', In q' (skind sub d) /\ o q' = x).
  { clear - T P. intros x y q U (e & Hq) E. destruct (t_o _ _ _ _ _ _ _ T _ _ Hq) as [Kq _]. rewrite E in Kq. destruct U as [U|[U|[d U]]].
    - destruct (end_kind s a P _ _ U) as [K1 _]. rewrite (KA s a P _ _ _ Kq K1) in Hq. destruct (t_ends _ _ _ _ _ _ _ T _ Hq) as (u & w & E1 & E2 & Hu & Hw); [intros []|]. destruct U as (v0 & v1 & E3 & Hv). rewrite E, E3 in E2. inversion E2; subst v0 v1. destruct Hv as [<-| <-]; eauto.
    - destruct (edge_kind s a P _ _ U) as [K1 _]. rewrite (KA s a P _ _ _ Kq K1) in Hq. destruct (t_loop _ _ _ _ _ _ _ T _ Hq) as (b & E1 & E2 & Hb); [intros []|]. destruct U as (b' & E3 & Hv). rewrite E, E3 in E2. inversion E2; subst b'. unfold via in Hv. rewrite map_map in Hv. apply in_map_iff in Hv. destruct Hv as (z & <- & Hz). cbn [fst]. eauto.
    - destruct (face_kind s a P _ _ _ U) as [K1 _]. rewrite (KA s a P _ _ _ Kq K1) in Hq. destruct (t_faces _ _ _ _ _ _ _ T _ Hq) as (b & E1 & E2 & Hb); [intros []|]. destruct U as (b' & E3 & Hv). rewrite E, E3 in E2. inversion E2; subst b'. unfold via in Hv. apply in_map_iff in Hv. destruct Hv as (z & Ez & Hz). inversion Ez. eauto. }
  induction H as [x y H|x z y H H2 IH]; intros q Hq E; [exact (U _ _ q H Hq E)|]. destruct (IH q Hq E) as (d & q' & Hq' & E'). exact (U _ _ q' H (ex_intro _ d Hq') E').
Qed.

Record RI (r : nat) (o : ptr -> ptr) (a' : amesh) (st : gst) (gb : list ptr) : Prop := mkRI {
  r_si : SIn r [] o (g_p st) a';
  r_cm : forall x, In x (cells s) -> (g_cm st x = true <-> wi r x);
  r_copy : forall x, wi r x -> exists q, In q (skind (ps_sub (g_p st)) c) /\ o q = x;
  r_sat : forall q, In q (skind (ps_sub (g_p st)) 0) -> In (o q) gb \/ forall x, In x (cells s) -> bounds a (o q) x -> wi r x;
  r_gb : forall v, In v gb -> exists q, In q (skind (ps_sub (g_p st)) 0) /\ o q = v;
  r_vm : forall v, g_vm st v = true -> In v gb }.

Variable cell : gst -> ptr -> result gst.
Hypothesis CELL : forall n gb (had : ptr -> Prop) o st a' g, (forall v, In v gb -> had v) -> GSn n gb had [] o st a' -> In g (cells s) -> halo s a part k n g -> nocopy o (g_p st) g ->
  exists st2 o2 a2, cell st g = Ok st2 /\ GSn n gb had [] o2 st2 a2 /\ done s o st o2 st2 g.

Lemma ring_ok : forall r o a' st gb i, RI r o a' st gb -> exists st2 gb2 o2 a2, ghost_ring (up_of c) cell (st, gb) i = Ok (st2, gb2) /\ RI (S r) o2 a2 st2 gb2.
Proof using All.
  intros r o a' st gb i R. set (had := fun v => exists q, In q (skind (ps_sub (g_p st)) 0) /\ o q = v).
  assert (HG : forall v, In v gb -> had v) by (intros v Hv; exact (r_gb _ _ _ _ _ R v Hv)).
  assert (HV : forall v, In v gb -> In v (K 0) /\ halo s a part k r v). { intros v Hv. destruct (HG _ Hv) as (q & Hq & <-). destruct (r_si _ _ _ _ _ R) as [T _]. apply (t_o _ _ _ _ _ _ _ T). auto. }
  unfold ghost_ring. set (st0 := mkG (g_p st) [] (g_vm st) (g_cm st)).
  set (Q := fun (W : ptr -> Prop) (x : gst) => exists o2 a2, GSn (S r) gb had [] o2 x a2 /\ (forall d q, In q (skind (ps_sub (g_p st)) d) -> In q (skind (ps_sub (g_p x)) d) /\ o2 q = o q) /\
     (forall y, In y (cells s) -> (g_cm x y = true <-> wi r y \/ W y)) /\ (forall y, In y (cells s) -> g_cm x y = true -> exists q, In q (skind (ps_sub (g_p x)) c) /\ o2 q = y) /\ (forall q, In q (skind (ps_sub (g_p x)) c) -> g_cm x (o2 q) = true)).
  assert (QW : forall W W' x, (forall y, In y (cells s) -> (W y <-> W' y)) -> Q W x -> Q W' x).
  { intros W W' x E (o2 & a2 & A & B & C & D). exists o2, a2. split; auto. split; auto. split; auto. intros y Hy. rewrite (C y Hy), (E y Hy). reflexivity. }
  edestruct (each ptr gst (fun dn x => Q (fun y => exists v, In v dn /\ bounds a v y) x)) with (full := gb) (st := st0) as (st1 & E1 & Q1).
  3: { rewrite E1. cbn [bind]. destruct Q1 as (o2 & a2 & [S2 (NA & NB & NC)] & X & C & D & F). eexists _, _, o2, a2. split; [reflexivity|]. pose proof S2 as [T2 B2].
    assert (CW : forall y, In y (cells s) -> (wi r y \/ (exists v, In v gb /\ bounds a v y) <-> wi (S r) y)).
    { intros y Hy. cbn [within]. split.
      - intros [H|(v & Hv & Hb)]; auto. right. split; auto. destruct (HV _ Hv) as [Kv (z & Hz & [->|Bz])].
        + exfalso. pose proof (within_cell s a part k P _ _ Hz) as Kz. pose proof (KA s a P _ _ _ Kv Kz). destruct (c_23 s); lia.
        + exists z. split; auto. exists v. auto.
      - intros [H|[_ (z & Hz & v & Kv & Bz & By)]]; auto. destruct (r_copy _ _ _ _ _ R _ Hz) as (q & Hq & Eq). destruct (r_si _ _ _ _ _ R) as [T _].
        destruct (copied_down r o (ps_sub (g_p st)) a' v z q T Bz ltac:(eauto) Eq) as (d & q' & Hq' & Eq'). destruct (t_o _ _ _ _ _ _ _ T _ _ Hq') as [Kq _]. rewrite Eq' in Kq. rewrite (KA s a P _ _ _ Kq Kv) in Hq'.
        destruct (r_sat _ _ _ _ _ R _ Hq') as [H|H]; rewrite Eq' in H; [right; eauto|left; auto]. }
    constructor; cbn [g_p g_cm g_vm].
    - exact S2.
    - intros x Hx. rewrite (C x Hx). apply CW. auto.
    - intros x Hx. pose proof (within_cell s a part k P _ _ Hx) as Kx. apply D; auto. apply C; auto. apply CW; auto.
    - intros q Hq. destruct (NB _ Hq) as [(q' & Hq' & E)|H]; auto. right. intros x Hx Bx. apply CW; auto. destruct (r_sat _ _ _ _ _ R _ Hq') as [H|H]; rewrite E in H; [right; eauto|left; auto].
    - exact NC.
    - intros v. rewrite !mark_all_in. destruct (existsb (Z.eqb v) (g_next st1)) eqn:E; [intros _; apply inx; auto|]. destruct (existsb (Z.eqb v) gb) eqn:E'; [discriminate|]. intro H. destruct (NA _ H) as [H'|H']; apply inx in H'; congruence. }
  2: { exists o, a'. split; [split|].
    - apply si_mono with r; auto. apply R.
    - split; [intros v Hv; left; apply (r_vm _ _ _ _ _ R); auto|]. split; [intros q Hq; left; exists q; auto|intros v []].
    - split; auto. split; [intros y Hy; cbn [st0 g_cm]; rewrite (r_cm _ _ _ _ _ R _ Hy); split; auto; intros [H|(v & [] & _)]; auto|]. split.
      + intros y Hy H. apply (r_copy _ _ _ _ _ R). apply (r_cm _ _ _ _ _ R); auto.
      + intros q Hq. destruct (r_si _ _ _ _ _ R) as [T _]. destruct (t_o _ _ _ _ _ _ _ T _ _ Hq) as [Kq Hh]. apply (r_cm _ _ _ _ _ R); auto. apply halo_cell; auto. }
  intros dn v rest x Ef Qx. assert (Hv : In v gb) by (rewrite Ef; apply in_or_app; right; left; auto). destruct (HV _ Hv) as [Kv Hh].
  destruct Qx as (o2 & a2 & G2 & X2 & C2 & D2 & F2). destruct (up_ok s a P v Kv) as (oo & Eo & Ao).
  assert (NE : exists l, oo = Some l). { destruct oo as [l|]; [eauto|]. exfalso. destruct Hh as (z & Hz & [->|Bz]). { pose proof (within_cell s a part k P _ _ Hz) as Kz. pose proof (KA s a P _ _ _ Kv Kz). destruct (c_23 s); lia. } apply (Ao z). split; auto. eapply within_cell; eauto. }
  destruct NE as [l ->]. destruct Ao as (_ & _ & Al).
  assert (EP : sm_t (ps_par (g_p x)) = sm_t s). { destruct G2 as [[_ B2] _]. unfold sm_t. rewrite (b_par _ _ _ _ _ _ _ _ B2), Hs'. auto. }
  rewrite EP, Eo. cbn [bind nn].
  edestruct (each ptr gst (fun dn' x => Q (fun y => (exists v, In v dn /\ bounds a v y) \/ In y dn') x)) with (full := l) (st := x) as (x1 & E1 & Q1).
  3: { exists x1. split; [exact E1|]. eapply QW; [|exact Q1]. intros y Hy. cbv beta. rewrite (Al y). split.
    - intros [(w & Hw & Bw)|[_ Bw]]; [exists w|exists v]; split; auto; apply in_or_app; cbn; auto.
    - intros (w & Hw & Bw). apply in_app_or in Hw. destruct Hw as [Hw|[<-|[]]]; eauto. }
  2: { exists o2, a2. split; auto. split; auto. split; auto. intros y Hy. rewrite (C2 y Hy). cbn. tauto. }
  clear x o2 a2 G2 X2 C2 D2 F2 EP. intros dn' y rest' x Ef' (o2 & a2 & G2 & X2 & C2 & D2 & F2). assert (Hy : In y l) by (rewrite Ef'; apply in_or_app; right; left; auto). apply Al in Hy. destruct Hy as [Ky By].
  destruct (g_cm x y) eqn:Ey.
  - exists x. split; auto. exists o2, a2. split; auto. split; auto. split; auto. intros w Hw. rewrite (C2 w Hw). split; [intros [H|[H|H]]; auto; right; right; apply in_or_app; auto|]. intros [H|[H|H]]; auto. apply in_app_or in H. destruct H as [H|[<-|[]]]; auto. apply C2; auto.
  - assert (HY : halo s a part k (S r) y). { exists y. split; auto. cbn [within]. destruct Hh as (z & Hz & [->|Bz]). { pose proof (within_cell s a part k P _ _ Hz) as Kz. pose proof (KA s a P _ _ _ Kv Kz). destruct (c_23 s); lia. } right. split; auto. exists z. split; auto. exists v. auto. }
    assert (NC : nocopy o2 (g_p x) y). { intros d q Hq E. destruct G2 as [[T2 _] _]. destruct (t_o _ _ _ _ _ _ _ T2 _ _ Hq) as [Kq _]. rewrite E in Kq. rewrite (KA s a P _ _ _ Kq Ky) in Hq. pose proof (F2 _ Hq) as Fq. rewrite E in Fq. congruence. }
    destruct (CELL (S r) gb had o2 x a2 y HG G2 Ky HY NC) as (x2 & o3 & a3 & E3 & G3 & ((C3 & C3' & C3'') & M3)). exists x2. split; auto. exists o3, a3. split; auto. split; [intros d q Hq; destruct (X2 _ _ Hq) as [A1 A2]; destruct (C3 _ _ A1) as [A3 A4]; split; auto; congruence|].
    rewrite M3. unfold zupd. split; [|split].
    + intros w Hw. destruct (Z.eqb_spec w y) as [EQ|NE]; [rewrite EQ; split; auto; intros _; right; right; apply in_or_app; cbn; auto|]. rewrite (C2 w Hw). split; [intros [H|[H|H]]; auto; right; right; apply in_or_app; auto|]. intros [H|[H|H]]; auto. apply in_app_or in H. destruct H as [H|[H|[]]]; auto. congruence.
    + intros w Hw. destruct (Z.eqb_spec w y) as [EQ|NE]; [rewrite EQ; auto|]. intro H. destruct (D2 w Hw H) as (q & Hq & Eq). destruct (C3 _ _ Hq) as [A1 A2]. exists q. split; auto. congruence.
    + intros q Hq. destruct (C3' _ Hq) as [H|H]; [destruct (C3 _ _ H) as [_ A2]; rewrite A2, (F2 _ H)|rewrite H]; [|rewrite Z.eqb_refl; auto]. destruct (_ =? _); auto.
Qed.
End Rings.
