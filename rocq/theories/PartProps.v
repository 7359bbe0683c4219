(** C46: partitioning a mesh (MESH_Partition.c). *)
From Coq Require Import ZArith Bool Floats.SpecFloat List Lia Arith ZifyBool ZifyNat.
From Verif Require Import Base BaseProofs ListSpec AttModel AttProps TopoModel TopoSpec TopoProofs TopoProofs2 TopoProofs3 TopoProofs5 TopoProofs6 TopoProofs7 TopoProps TopoProps2 ModProofs CheckProps CellProofs2 RefineProps ParModel BuildProofs2 FileModel FileSpec FileProofs3 FileProofs4 SendModel SendSpec SendProofs2 PartModel PartSpec PartProofs PartProofs2.
Import ListNotations.
Open Scope Z_scope.

Lemma surf_copies : forall s a part, partable s a -> celldim s = 2 -> copies s a part surf_face.
Proof.
  intros s a part P C k g2l0 M0 G0 Hk HM Hg o st a' g I Hc Ip L N. rewrite C in Hc. eapply surf_face_ok; eauto.
Qed.
Lemma vol_copies : forall s a part, partable s a -> celldim s = 3 -> copies s a part vol_region.
Proof.
  intros s a part P C k g2l0 M0 G0 Hk HM Hg o st a' g I Hc Ip L N. rewrite C in Hc. eapply vol_region_ok; eauto.
Qed.

(** ** The partition *)
(** Numbers 1, 2, ... were given to the entities of dimension [d] that are in a part. *)
Definition counted (s s' : smesh) (d : Z) : Prop :=
  (forall p q, In p (skind s d) -> In q (skind s d) -> pi_gid (sm_p s' p) = pi_gid (sm_p s' q) -> pi_gid (sm_p s' p) <> 0 -> p = q) /\
  exists n, forall i, (exists p, In p (skind s d) /\ pi_gid (sm_p s' p) = i /\ i <> 0) <-> 1 <= i <= n.
(** The shared entities of a mesh that has not been partitioned yet have master 0. *)
Definition unparted (s : smesh) : Prop := forall d g, d < celldim s -> In g (skind s d) -> pi_master (sm_p s g) = 0.

Theorem C46_partition : forall s a part num, partable s a -> unparted s -> cells s <> [] -> (length (cells s) <= length part)%nat -> 0 <= num < 2 ^ 29 ->
  exists s' g2l subs, MESH_Partition s num part = Ok (s', g2l, subs) /\
    (* the mesh itself keeps all but global IDs and masters *)
    sm_m s' = sm_m s /\ (forall g, pi_ptype (sm_p s' g) = pi_ptype (sm_p s g) /\ pi_bdry (sm_p s' g) = pi_bdry (sm_p s g)) /\
    (* one submesh for each part, being that part *)
    Z.of_nat (length subs) = num /\ (forall k sub l2g, nth_error subs k = Some (sub, l2g) -> exists a', is_part s a part (Z.of_nat k) s' sub a' l2g) /\
    (* the lists of copies *)
    (forall g k l, In (k, l) (g2l g) <-> 0 <= k /\ exists sub l2g d, nth_error subs (Z.to_nat k) = Some (sub, l2g) /\ In l (skind sub d) /\ l2g l = g) /\ (forall g, NoDup (map fst (g2l g))) /\
    (* masters and global IDs *)
    (forall d g j, In g (skind s d) -> j < num -> owner s a part g j -> pi_master (sm_p s' g) = j) /\
    (forall g, pi_gid (sm_p s g) <> 0 -> pi_gid (sm_p s' g) = pi_gid (sm_p s g)) /\
    (forall d, (forall p, In p (skind s d) -> pi_gid (sm_p s p) = 0) -> counted s s' d).
Proof.
  intros s a part num P U NE HL HN. pose proof (kinds_apart s a (pa_reach _ _ P) (pa_v _ _ P) (pa_e _ _ P) (pa_f _ _ P) (pa_r _ _ P)) as KA.
  assert (NDl : NoDup (skind s 0 ++ skind s 1 ++ skind s 2)).
  { apply nd_app. split; [apply (pa_nd _ _ P)|]. split; [apply nd_app; split; [apply (pa_nd _ _ P)|split; [apply (pa_nd _ _ P)|]]|].
    - intros p H1 H2. pose proof (KA _ _ _ H1 H2). discriminate.
    - intros p H1 H2. apply in_app_or in H2. destruct H2 as [H2|H2]; pose proof (KA _ _ _ H1 H2); discriminate. }
  assert (NDs : NoDup (skind s 0 ++ skind s 1)) by (rewrite app_assoc in NDl; apply nd_app in NDl; apply NDl).
  assert (X : exists s1 g2l ids subs l, MESH_Partition s num part = Ok (dial_back s1 l, g2l, subs) /\ GI s a part num s1 g2l ids subs /\ NoDup l /\ (forall p, In p l <-> exists d, d < celldim s /\ In p (skind s d))).
  { unfold MESH_Partition. change (fm_v (sm_m s)) with (skind s 0). change (fm_e (sm_m s)) with (skind s 1). change (fm_f (sm_m s)) with (skind s 2). change (fm_r (sm_m s)) with (skind s 3).
    destruct (Z.ltb_spec 0 (ZL (skind s 3))) as [L|L].
    - assert (C : celldim s = 3) by (revert L; unfold celldim, ZL; destruct (skind s 3); [cbn [length]; lia|auto]).
      destruct (parts_ok s a part P HL U vol_region num (vol_copies s a part P C) HN) as (s1 & g2l & ids & subs & E & G). unfold cells in E. rewrite C in E. rewrite E. cbn [bind].
      exists s1, g2l, ids, subs, (skind s 0 ++ skind s 1 ++ skind s 2). split; auto. split; auto. split; auto. intro p. rewrite C, !in_app_iff. split.
      + intros [H|[H|H]]; [exists 0|exists 1|exists 2]; split; auto; lia.
      + intros (d & D & H). destruct (kind_cases _ _ _ H) as [-> | [-> | [-> | ->]]]; auto. lia.
    - assert (C : celldim s = 2) by (revert L; unfold celldim, ZL; destruct (skind s 3); [auto|cbn [length]; lia]). unfold cells in *. rewrite C in NE.
      destruct (Z.ltb_spec 0 (ZL (skind s 2))) as [L2|L2]. 2: { exfalso. revert L2 NE. unfold ZL. destruct (skind s 2); [auto|cbn [length]; lia]. }
      destruct (parts_ok s a part P HL U surf_face num (surf_copies s a part P C) HN) as (s1 & g2l & ids & subs & E & G). unfold cells in E. rewrite C in E. rewrite E. cbn [bind].
      exists s1, g2l, ids, subs, (skind s 0 ++ skind s 1). split; auto. split; auto. split; auto. intro p. rewrite C, !in_app_iff. split.
      + intros [H|H]; [exists 0|exists 1]; split; auto; lia.
      + intros (d & D & H). destruct (kind_cases _ _ _ H) as [-> | [-> | [-> | ->]]]; auto; lia. }
  destruct X as (s1 & g2l & ids & subs & l & E & G & ND & HI). destruct (dial_back_ok l s1 ND) as (D1 & D2 & D3 & D4).
  exists (dial_back s1 l), g2l, subs. split; [exact E|]. split; [rewrite D1; apply (g_m _ _ _ _ _ _ _ _ G)|]. split; [intro g; destruct (D2 g) as (_ & -> & ->); apply (g_keep _ _ _ _ _ _ _ _ G)|].
  split; [apply (g_len _ _ _ _ _ _ _ _ G)|]. split. { intros k sub l2g H. destruct (g_sub _ _ _ _ _ _ _ _ G _ _ _ H) as (a' & IP). exists a'. eapply is_part_par; [exact IP|]. intros g _. apply D2. }
  split; [apply (g_list _ _ _ _ _ _ _ _ G)|]. split; [apply (g_once _ _ _ _ _ _ _ _ G)|]. split; [|split].
  - intros d g j Hg Hj Ow. destruct (Z.lt_ge_cases d (celldim s)) as [D|D].
    + rewrite D4 by (apply HI; eauto). destruct (g_own _ _ _ _ _ _ _ _ G d g D Hg) as (B & [[_ Hn]|[N Ow']]). { destruct Ow as (O1 & O2 & _). destruct (Hn j); auto. }
      pose proof (owner_one _ _ _ _ _ _ Ow Ow'). rewrite <- H. apply Z.mod_small. lia.
    + assert (d = celldim s). { destruct (kind_cases _ _ _ Hg) as [-> | [-> | [-> | ->]]]; unfold celldim in *; destruct (skind s 3) eqn:E3; try lia; auto. destruct Hg. } subst d. clear D.
      rewrite D3. 2: { intro H. apply HI in H. destruct H as (d & D & H). pose proof (KA _ _ _ Hg H). lia. }
      destruct Ow as (O1 & O2 & _). apply In_nth_error in Hg. destruct Hg as [i Ei]. apply (g_cell _ _ _ _ _ _ _ _ G i g j Ei); [|auto]. apply (cell_once s a part P i g j Ei O2).
  - intros g Hg. destruct (D2 g) as (-> & _ & _). apply (g_init _ _ _ _ _ _ _ _ G). auto.
  - intros d Z0. destruct (g_ids _ _ _ _ _ _ _ _ G d) as [I1 I2]. destruct (I2 Z0) as (A & B & C). split.
    + intros p q Hp Hq. destruct (D2 p) as (-> & _ & _). destruct (D2 q) as (-> & _ & _). auto.
    + exists (ids d - 1). intro i. split.
      * intros (p & Hp & Ep & N). destruct (D2 p) as (D2p & _ & _). rewrite D2p in Ep. specialize (A p Hp). cbv beta in A. lia.
      * intro Hi. destruct (C i ltac:(lia)) as (p & Hp & Ep). exists p. split; auto. destruct (D2 p) as (-> & _ & _). split; [exact Ep|lia].
Qed.
Print Assumptions C46_partition.

(** ** A test of [partable] *)
Fixpoint ndb (l : list Z) : bool := match l with [] => true | x :: r => negb (existsb (Z.eqb x) r) && ndb r end.
Lemma ndb_ok : forall l, ndb l = true -> NoDup l.
Proof.
  induction l as [|x l IH]; cbn; intro H; constructor; apply andb_prop in H; destruct H as [H1 H2]; auto. intro Q. assert (existsb (Z.eqb x) l = true) by (apply existsb_exists; exists x; split; auto; lia). rewrite H in H1. discriminate.
Qed.
Definition inb (p : Z) (l : list Z) : bool := existsb (Z.eqb p) l.
Lemma inb_ok : forall p l, inb p l = true <-> In p l.
Proof. intros p l. unfold inb. rewrite existsb_exists. split; [intros (x & H & E); apply Z.eqb_eq in E; subst; auto|intro H; exists p; split; auto; lia]. Qed.
Definition livb {A} (x : option (bool * A)) : bool := match x with Some (true, _) => true | _ => false end.
Definition partableb (s : smesh) (a : amesh) : bool :=
  let m := sm_m s in
  ndb (fm_v m) && ndb (fm_e m) && ndb (fm_f m) && ndb (fm_r m) &&
  forallb (fun p => (1 <=? p) && (p <? a_next a) && (0 <=? fst (fm_c m p)) && (fst (fm_c m p) <? 8) && (0 <=? snd (fm_c m p)) && (snd (fm_c m p) <? 2 ^ 26)) (fm_v m ++ fm_e m ++ fm_f m ++ fm_r m) &&
  forallb (fun p =>
    Bool.eqb (inb p (fm_v m)) (match a_v a p with Some true => true | _ => false end) && Bool.eqb (inb p (fm_e m)) (livb (a_e a p)) && Bool.eqb (inb p (fm_f m)) (livb (a_f a p)) && Bool.eqb (inb p (fm_r m)) (livb (a_r a p)) &&
    match a_e a p with Some (true, (x, y)) => negb (x =? NULL) && negb (y =? NULL) | _ => true end &&
    match a_f a p with Some (true, None) => false | Some (true, Some b) => (length b <=? 30)%nat | _ => true end &&
    match a_r a p with Some (true, None) => false | _ => true end) (zrange 1 (a_next a)).
Lemma livb_ok : forall A (x : option (bool * A)), livb x = true <-> exists y, x = Some (true, y).
Proof. intros A [[[|] y]|]; cbn; split; try discriminate; eauto; intros [z H]; discriminate. Qed.
Lemma partableb_ok : forall s a, reach (sm_t s) a -> partableb s a = true -> partable s a.
Proof.
  intros s a R H. unfold partableb in H. repeat (apply andb_prop in H; destruct H as [H ?]). rename H0 into HZ, H1 into HL. rename H into N0, H4 into N1, H3 into N2, H2 into N3.
  pose proof (i_w _ _ (reach_inv _ _ R)) as W. rewrite forallb_forall in HZ, HL.
  assert (HL' : forall d p, In p (skind s d) -> 1 <= p < a_next a /\ (0 <= fst (fm_c (sm_m s) p) < 8 /\ 0 <= snd (fm_c (sm_m s) p) < 2 ^ 26)).
  { intros d p Hp. specialize (HL p). assert (IN : In p (fm_v (sm_m s) ++ fm_e (sm_m s) ++ fm_f (sm_m s) ++ fm_r (sm_m s))) by (rewrite !in_app_iff; destruct (kind_cases _ _ _ Hp) as [-> | [-> | [-> | ->]]]; auto). specialize (HL IN). repeat (apply andb_prop in HL; destruct HL as [HL ?]). lia. }
  assert (B : forall p, 1 <= p < a_next a -> (inb p (fm_v (sm_m s)) = true <-> live_v a p) /\ (inb p (fm_e (sm_m s)) = true <-> live_e a p) /\ (inb p (fm_f (sm_m s)) = true <-> live_f a p) /\ (inb p (fm_r (sm_m s)) = true <-> live_r a p) /\
    match a_e a p with Some (true, (x, y)) => negb (x =? NULL) && negb (y =? NULL) | _ => true end = true /\ match a_f a p with Some (true, None) => false | Some (true, Some b) => (length b <=? 30)%nat | _ => true end = true /\ match a_r a p with Some (true, None) => false | _ => true end = true).
  { intros p Hp. specialize (HZ p ltac:(apply zrange_In; lia)). repeat (apply andb_prop in HZ; destruct HZ as [HZ ?]). apply eqb_prop in HZ, H2, H3, H4. rewrite HZ, H2, H3, H4. split; [|split; [apply livb_ok|split; [apply livb_ok|split; [apply livb_ok|auto]]]]. unfold live_v. destruct (a_v a p) as [[|]|]; split; auto; discriminate. }
  constructor; auto.
  - intro d. unfold skind, kind. destruct (d =? 0); [apply ndb_ok; auto|]. destruct (d =? 1); [apply ndb_ok; auto|]. destruct (d =? 2); [apply ndb_ok; auto|]. destruct (d =? 3); [apply ndb_ok; auto|constructor].
  - intro p. split; [intro H; destruct (HL' _ _ H) as [Hp _]; apply (B _ Hp), inb_ok; exact H|]. intro H. assert (Hp : 1 <= p < a_next a) by (apply (w_v _ W); unfold live_v in H; congruence). apply (B _ Hp) in H. apply inb_ok in H. exact H.
  - intro p. split; [intro H; destruct (HL' _ _ H) as [Hp _]; apply (B _ Hp), inb_ok; exact H|]. intro H. assert (Hp : 1 <= p < a_next a) by (apply (w_e _ W); destruct H as [x H]; congruence). apply (B _ Hp) in H. apply inb_ok in H. exact H.
  - intro p. split; [intro H; destruct (HL' _ _ H) as [Hp _]; apply (B _ Hp), inb_ok; exact H|]. intro H. assert (Hp : 1 <= p < a_next a) by (apply (w_f _ W); destruct H as [x H]; congruence). apply (B _ Hp) in H. apply inb_ok in H. exact H.
  - intro p. split; [intro H; destruct (HL' _ _ H) as [Hp _]; apply (B _ Hp), inb_ok; exact H|]. intro H. assert (Hp : 1 <= p < a_next a) by (apply (w_r _ W); destruct H as [x H]; congruence). apply (B _ Hp) in H. apply inb_ok in H. exact H.
  - intros e v0 v1 H. assert (Hp : 1 <= e < a_next a) by (apply (w_e _ W); congruence). destruct (B _ Hp) as (_ & _ & _ & _ & Q & _). rewrite H in Q. apply andb_prop in Q. lia.
  - intros f H. assert (Hp : 1 <= f < a_next a) by (apply (w_f _ W); congruence). destruct (B _ Hp) as (_ & _ & _ & _ & _ & Q & _). rewrite H in Q. discriminate.
  - intros f b H. assert (Hp : 1 <= f < a_next a) by (apply (w_f _ W); congruence). destruct (B _ Hp) as (_ & _ & _ & _ & _ & Q & _). rewrite H in Q. apply Nat.leb_le in Q. exact Q.
  - intros r H. assert (Hp : 1 <= r < a_next a) by (apply (w_r _ W); congruence). destruct (B _ Hp) as (_ & _ & _ & _ & _ & _ & Q). rewrite H in Q. discriminate.
  - intros d p H. apply (HL' _ _ H).
Qed.
Definition unpartedb (s : smesh) : bool := forallb (fun p => pi_master (sm_p s p) =? 0) (fm_v (sm_m s) ++ fm_e (sm_m s) ++ match fm_r (sm_m s) with [] => [] | _ => fm_f (sm_m s) end).
Lemma unpartedb_ok : forall s, unpartedb s = true -> unparted s.
Proof.
  intros s H d g D Hg. unfold unpartedb in H. rewrite forallb_forall in H. apply Z.eqb_eq. apply H. rewrite !in_app_iff. unfold celldim in D. change (skind s 3) with (fm_r (sm_m s)) in D. destruct (kind_cases _ _ _ Hg) as [-> | [-> | [-> | ->]]]; auto; destruct (fm_r (sm_m s)) eqn:E; try lia; auto.
Qed.

(** ** Three triangles in a row, and two tetrahedra *)
Definition strip : list top := [TNewV; TNewV; TNewV; TNewV; TNewV;
  TNewE; TSetVertex 6 false 1; TSetVertex 6 true 2; TNewE; TSetVertex 7 false 2; TSetVertex 7 true 3; TNewE; TSetVertex 8 false 3; TSetVertex 8 true 1;
  TNewE; TSetVertex 9 false 2; TSetVertex 9 true 4; TNewE; TSetVertex 10 false 4; TSetVertex 10 true 3; TNewE; TSetVertex 11 false 4; TSetVertex 11 true 5; TNewE; TSetVertex 12 false 5; TSetVertex 12 true 3;
  TNewF; TSetEdges 13 [(6, true); (7, true); (8, true)]; TNewF; TSetEdges 14 [(9, true); (10, true); (7, false)]; TNewF; TSetEdges 15 [(11, true); (12, true); (10, false)]].
Definition clean (p : ptr) : pinfo := mkPI 0 false 0 0.
Definition xyz (p : ptr) : spec_float * spec_float * spec_float := (S754_finite false (Z.to_pos p) 0, S754_zero true, S754_zero false).
Definition strip_mesh (par : ptr -> pinfo) : smesh :=
  mkSM (mkFM (tget strip) (fun p => (p mod 4, p)) xyz (fun p => p) [1; 2; 3; 4; 5] (zrange 6 13) [13; 14; 15] [] []) par [].
Definition tets_mesh (par : ptr -> pinfo) : smesh :=
  mkSM (mkFM (tget tets) (fun p => (p mod 4, p)) xyz (fun p => p) [1; 2; 3; 4; 5] (zrange 6 15) (zrange 15 22) [22; 23] []) par [].
Lemma strip_ok : forall par, partable (strip_mesh par) (arun amesh0 strip).
Proof. intro par. apply partableb_ok; [apply (reach_tget strip); vm_compute; reflexivity|vm_compute; reflexivity]. Qed.
Lemma tets_ok : forall par, partable (tets_mesh par) (arun amesh0 tets).
Proof. intro par. apply partableb_ok; [apply (reach_tget tets); vm_compute; reflexivity|vm_compute; reflexivity]. Qed.

Definition pinf (s : smesh) (p : ptr) : Z * Z := (pi_master (sm_p s p), pi_gid (sm_p s p)).
(** The middle triangle is part 1, the others part 0: five copies of vertices in part 0,
    vertices 2, 3 and 4 are also in part 1, with master 0; edges 7 and 10 are in both. *)
Example C46_partition_ex : partable (strip_mesh clean) (arun amesh0 strip) /\ unparted (strip_mesh clean) /\
  match MESH_Partition (strip_mesh clean) 2 [0; 1; 0] with
  | Ok (s', g2l, [(p0, f0); (p1, f1)]) =>
      map f0 (skind p0 0) = [1; 2; 3; 4; 5] /\ map f1 (skind p1 0) = [2; 4; 3] /\ map f1 (skind p1 1) = [9; 10; 7] /\ map f1 (skind p1 2) = [14] /\
      map (pinf s') [1; 4; 7; 9; 13; 14; 15] = [(0, 1); (0, 4); (0, 2); (1, 7); (0, 1); (1, 3); (0, 2)] /\
      map (pinf p1) (skind p1 1) = [(1, 7); (0, 6); (0, 2)] /\ g2l 7 = [(0, 4); (1, 6)] /\ map (pinf p1) (skind p1 2) = [(1, 3)]
  | _ => False
  end.
Proof. split; [apply strip_ok|]. split; [apply unpartedb_ok; vm_compute; reflexivity|]. vm_compute. repeat split; reflexivity. Qed.
(** Two tetrahedra, the first in part 1: the face between them, 17, is in both parts. *)
Example C46_partition_ex_vol : partable (tets_mesh clean) (arun amesh0 tets) /\ unparted (tets_mesh clean) /\
  match MESH_Partition (tets_mesh clean) 2 [1; 0] with
  | Ok (s', g2l, [(p0, f0); (p1, f1)]) =>
      map f0 (skind p0 0) = [2; 3; 4; 5] /\ map f1 (skind p1 0) = [1; 2; 3; 4] /\ map f0 (skind p0 3) = [23] /\ map f1 (skind p1 3) = [22] /\
      inb 17 (map f0 (skind p0 2)) = true /\ inb 17 (map f1 (skind p1 2)) = true /\ g2l 17 = [(0, 1); (1, 12)] /\ map (pinf s') [22; 23; 17] = [(1, 2); (0, 1); (0, 1)]
  | _ => False
  end.
Proof. split; [apply tets_ok|]. split; [apply unpartedb_ok; vm_compute; reflexivity|]. vm_compute. repeat split; reflexivity. Qed.

(** ** What is not in a part: a list that holds its cells and all that bounds its entries *)
Definition closedb (s : smesh) (a : amesh) (part : list Z) (k : Z) (l : list ptr) : bool :=
  forallb (fun x => negb (snd x =? k) || inb (fst x) l) (combine (cells s) part) &&
  forallb (fun p =>
    match a_r a p with Some (true, Some b) => forallb (fun x => inb (fst x) l) b | _ => true end &&
    match a_f a p with Some (true, Some b) => forallb (fun x => inb (fst x) l) b | _ => true end &&
    match a_e a p with Some (true, (u, w)) => inb u l && inb w l | _ => true end) l.
Lemma closedb_ok : forall s a part k l, closedb s a part k l = true -> forall g, inpart s a part k g -> In g l.
Proof.
  intros s a part k l H. unfold closedb in H. apply andb_prop in H. destruct H as [H1 H2]. rewrite forallb_forall in H1, H2. induction 1 as [i g E1 E2|r f d _ IH (b & E & H)|f e _ IH (b & E & H)|e v _ IH (u & w & E & H)].
  - assert (X : In (g, k) (combine (cells s) part)). { clear - E1 E2. revert i part E1 E2. induction (cells s) as [|c cs IHc]; intros [|i] [|x part] E1 E2; cbn in *; try discriminate. - inversion E1; inversion E2; auto. - right. eauto. }
    specialize (H1 _ X). cbn [fst snd] in H1. rewrite Z.eqb_refl in H1. apply inb_ok. exact H1.
  - specialize (H2 _ IH). apply andb_prop in H2. destruct H2 as [H2 _]. apply andb_prop in H2. destruct H2 as [H2 _]. rewrite E in H2. rewrite forallb_forall in H2. apply inb_ok. apply (H2 (f, d) H).
  - specialize (H2 _ IH). apply andb_prop in H2. destruct H2 as [H2 _]. apply andb_prop in H2. destruct H2 as [_ H2]. rewrite E in H2. rewrite forallb_forall in H2. apply in_map_iff in H. destruct H as (x & <- & Hx). apply inb_ok. auto.
  - specialize (H2 _ IH). apply andb_prop in H2. destruct H2 as [_ H2]. rewrite E in H2. apply andb_prop in H2. apply inb_ok. destruct H as [->| ->]; apply H2.
Qed.

(** Partitioned a second time: the partition numbers of the first time are taken for
    those of the second (the test is for 0), and an entity gets a master that has no copy. *)
Definition again : bool :=
  match MESH_Partition (strip_mesh clean) 3 [0; 1; 2] with
  | Ok (s1, _, _) =>
      match MESH_Partition s1 3 [2; 1; 0] with
      | Ok (_, _, (sub, f) :: _) => inb 3 (skind sub 0) && (pi_master (sm_p sub 3) =? 1) && (f 3 =? 5) && closedb s1 (arun amesh0 strip) [2; 1; 0] 1 [14; 9; 10; 7; 2; 4; 3]
      | _ => false
      end
  | _ => false
  end.
Lemma again_ok : again = true.
Proof. vm_compute. reflexivity. Qed.
Theorem C46_again_refuted : exists s a part num s1 g1 subs1 part2 s2 g2 subs2 k sub l2g q, partable s a /\ unparted s /\ MESH_Partition s num part = Ok (s1, g1, subs1) /\
  (length (cells s1) <= length part2)%nat /\ MESH_Partition s1 num part2 = Ok (s2, g2, subs2) /\ nth_error subs2 k = Some (sub, l2g) /\ In q (skind sub 0) /\ 0 <= pi_master (sm_p sub q) < num /\
  ~ inpart s1 a part2 (pi_master (sm_p sub q)) (l2g q).
Proof.
  pose proof again_ok as H. unfold again in H.
  destruct (C46_partition (strip_mesh clean) (arun amesh0 strip) [0; 1; 2] 3 (strip_ok clean)) as (s1 & g1 & subs1 & E1 & Em & _); [apply unpartedb_ok; vm_compute; reflexivity|vm_compute; discriminate|vm_compute; lia|lia|]. rewrite E1 in H.
  destruct (MESH_Partition s1 3 [2; 1; 0]) as [[[s2 g2] subs2]| | |] eqn:E2; try discriminate H. destruct subs2 as [|[sub f] subs2]; try discriminate H.
  apply andb_prop in H. destruct H as [H C]. apply andb_prop in H. destruct H as [H F]. apply andb_prop in H. destruct H as [H M]. apply Z.eqb_eq in F, M. apply inb_ok in H.
  exists (strip_mesh clean), (arun amesh0 strip), [0; 1; 2], 3, s1, g1, subs1, [2; 1; 0], s2, g2, ((sub, f) :: subs2), 0%nat, sub, f, 3.
  split; [apply strip_ok|]. split; [apply unpartedb_ok; vm_compute; reflexivity|]. split; [exact E1|]. split. { unfold cells, celldim, skind. rewrite Em. cbn [length]. vm_compute. lia. } split; [exact E2|]. split; [reflexivity|]. split; [exact H|]. rewrite M, F. split; [lia|]. intro X. apply (closedb_ok _ _ _ _ _ C) in X. revert X. clear. cbn. intuition lia.
Qed.
(** Some global IDs set before, some not: the numbers given start at 1 all the same. *)
Theorem C46_ids_refuted : exists s a part num s' g2l subs p q, partable s a /\ unparted s /\ MESH_Partition s num part = Ok (s', g2l, subs) /\ In p (skind s 0) /\ In q (skind s 0) /\ p <> q /\ pi_gid (sm_p s' p) = pi_gid (sm_p s' q).
Proof.
  set (s := strip_mesh (fun p => mkPI 0 false 0 (if p =? 5 then 1 else 0))).
  assert (H : match MESH_Partition s 1 [0; 0; 0] with Ok (s', _, _) => pi_gid (sm_p s' 1) =? pi_gid (sm_p s' 5) | _ => false end = true) by (vm_compute; reflexivity).
  assert (U : unparted s) by (apply unpartedb_ok; vm_compute; reflexivity). assert (K : skind s 0 = [1; 2; 3; 4; 5]) by reflexivity. pose proof (strip_ok (fun p => mkPI 0 false 0 (if p =? 5 then 1 else 0))) as P. fold s in P. clearbody s.
  destruct (MESH_Partition s 1 [0; 0; 0]) as [[[s' g2l] subs]| | |] eqn:E; try discriminate H. apply Z.eqb_eq in H.
  exists s, (arun amesh0 strip), [0; 0; 0], 1, s', g2l, subs, 1, 5. rewrite K. split; [exact P|]. split; [exact U|]. split; [exact E|]. split; [cbn; auto|]. split; [cbn; auto 6|]. split; [discriminate|exact H].
Qed.
(** An entity that is in no part: its partition number is 0 - 1 in 29 bits. *)
Definition lone_mesh : smesh :=
  mkSM (mkFM (tget (strip ++ [TNewV])) (fun p => (p mod 4, p)) xyz (fun p => p) [1; 2; 3; 4; 5; 16] (zrange 6 13) [13; 14; 15] [] []) clean [].
Lemma lone_ok : partable lone_mesh (arun amesh0 (strip ++ [TNewV])).
Proof. apply partableb_ok; [apply (reach_tget (strip ++ [TNewV])); vm_compute; reflexivity|vm_compute; reflexivity]. Qed.
Theorem C46_unused_refuted : exists s a part num s' g2l subs p, partable s a /\ unparted s /\ (forall i, In i part -> 0 <= i < num) /\ MESH_Partition s num part = Ok (s', g2l, subs) /\ In p (skind s 0) /\ pi_master (sm_p s p) = 0 /\ pi_master (sm_p s' p) = 2 ^ 29 - 1.
Proof.
  assert (H : match MESH_Partition lone_mesh 1 [0; 0; 0] with Ok (s', _, _) => pi_master (sm_p s' 16) =? 2 ^ 29 - 1 | _ => false end = true) by (vm_compute; reflexivity).
  destruct (MESH_Partition lone_mesh 1 [0; 0; 0]) as [[[s' g2l] subs]| | |] eqn:E; try discriminate H. apply Z.eqb_eq in H.
  exists lone_mesh, (arun amesh0 (strip ++ [TNewV])), [0; 0; 0], 1, s', g2l, subs, 16. split; [exact lone_ok|]. split; [apply unpartedb_ok; vm_compute; reflexivity|]. split; [cbn; intuition lia|]. split; [exact E|]. split; [cbn; auto 10|]. split; [reflexivity|exact H].
Qed.
(** A face of 31 edges: the array for the copies of its edges has 30 entries. *)
Definition big_mesh : smesh := mkSM (mkFM Tn (fun _ => (0, 0)) xyz (fun p => p) (zrange 1 32) (zrange 32 63) [63] [] []) clean [].
Theorem C46_large_refuted : exists s a part num f b, reach (sm_t s) a /\ unparted s /\ skind s 2 = [f] /\ a_f a f = Some (true, Some b) /\ length b = 31%nat /\ length part = 1%nat /\ MESH_Partition s num part = Undef.
Proof.
  exists big_mesh, (arun amesh0 (ngon 31)), [0], 1, 63, (map (fun i => (Z.of_nat (32 + i), true)) (seq 0 31)). split; [exact Tn_reach|]. split; [apply unpartedb_ok; vm_compute; reflexivity|]. split; [reflexivity|]. split; [vm_compute; reflexivity|]. split; [reflexivity|]. split; [reflexivity|]. vm_compute. reflexivity.
Qed.
Print Assumptions C46_again_refuted. Print Assumptions C46_ids_refuted. Print Assumptions C46_unused_refuted. Print Assumptions C46_large_refuted.
