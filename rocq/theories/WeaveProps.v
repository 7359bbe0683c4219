(** C55 continued: global IDs first, connections then, as the meshes of the ranks are
    woven together (src/par/MSTK_Weave_DistributedMeshes.c). *)
From Coq Require Import ZArith List Lia Bool Arith ZifyBool ZifyNat Permutation Sorting.Sorted.
From Verif Require Import Base BaseProofs ListSpec SortModel CompareModel CompareProps MeshModel AttModel AttProps TopoModel TopoProofs TopoProofs2 TopoProps TopoProps2 ParModel ParProps CommModel CommProofs CommProofs2 ExchModel ExchProofs ExchProofs2 LabelModel GidModel GidProofs GidProofs2 GidProofs3 GidProofs4 GidProofs7 GidProps GidProps2 ConnModel ConnProofs ConnProps.
Import ListNotations.
Open Scope Z_scope.

(** ** Specification *)

(** Rank [p] has flagged rank [q] for kind [t] exactly if it is another one with a
    vertex that is the twin of one of [p]; for faces only if [p] has regions. *)
Definition connected (n : Z) (x : Z -> grank) (tw : Z -> ptr -> Z -> ptr -> Prop) (z : Z -> crank) : Prop :=
  forall p q t, on n p -> on n q -> 0 <= t <= 3 ->
    (from (c_p (z p)) q t <-> q <> p /\ (t = 0 \/ t = 1 \/ (t = 2 /\ g_rs (x p) <> [])) /\ exists v w, In v (g_vs (x p)) /\ In w (g_vs (x q)) /\ tw p v q w).

(** ** Proofs *)
Lemma new_table : forall n p m, 0 <= n -> pflags m = None -> table_ok n p (MESH_Set_Prtn m p n).
Proof.
  intros n p m Hn E. split. reflexivity. split. reflexivity. unfold MESH_Set_Prtn. rewrite E. eexists. split. reflexivity. split. rewrite repeat_length. lia. intros w Hw. apply repeat_spec in Hw. lia.
Qed.
Lemma new_unflagged : forall n p m q t, pflags m = None -> 0 <= q < n -> 0 <= t <= 3 -> ~ from (MESH_Set_Prtn m p n) q t.
Proof.
  intros n p m q t E Hq Ht X. assert (I : finv p n ps0 (MESH_Set_Prtn m p n)).
  { constructor; auto. exists (repeat 0 (Z.to_nat n)). split. unfold MESH_Set_Prtn. rewrite E. reflexivity. split. rewrite repeat_length. lia. intros r Hr. rewrite nth_repeat. split. lia. intros k Hk. rewrite !Z.bits_0. split; reflexivity. }
  apply (from_sg p n ps0 _ q t I Hq Ht) in X. discriminate.
Qed.
Lemma weave_conn : forall N (x y : Z -> grank) tw old junk m, (0 < N)%nat -> let n := Z.of_nat N in
  (forall p, on n p -> g_vs (y p) = g_vs (x p) /\ g_rs (y p) = g_rs (x p)) ->
  numbering n (fun p => g_vs (x p)) tw old (fun p => gv (y p)) -> same_ids n (fun p => g_vs (x p)) tw (fun p => gv (y p)) ->
  (forall p v, on n p -> In v (g_vs (x p)) -> 0 < g_id (gv (y p)) v < 2 ^ 31) -> (forall p, on n p -> NoDup (g_vs (x p))) -> (forall p, on n p -> pflags (m p) = None) ->
  exists z, (forall lo, protocol n lo (lo + 2) (fun p => MESH_BuildConnection (junk p) n p (conn_of (y p) (MESH_Set_Prtn (m p) p n))) z) /\ connected n x tw z.
Proof.
  intros N x y tw old junk m HN n HY NU SI RG ND HM.
  destruct (connection_ok N junk (fun p => conn_of (y p) (MESH_Set_Prtn (m p) p n)) HN) as (z & Z1 & Z2).
  { intros p Hp. destruct (HY p Hp) as (V & _). unfold rank_ok, outer. cbn [conn_of c_vs c_pt c_gid c_p]. rewrite V. split. auto. split. intros v (Hv & _). pose proof (RG p v Hp Hv). lia. split.
    - intros v w (Hv & _) (Hw & _) E. apply (SI p v p w Hp Hp Hv Hw) in E. destruct E as [(_ & E)|(E & _)]; auto. elim E; auto.
    - apply new_table. lia. auto. }
  exists z. split. exact Z1. intros p q t Hp Hq Ht. destruct (Z2 p Hp) as (_ & _ & _ & _ & _ & _ & A). rewrite (proj1 (A q t Hq Ht)). cbn [conn_of c_p]. destruct (HY p Hp) as (V & R). destruct (HY q Hq) as (V' & _).
  assert (SH : forall u v s w, on n u -> on n s -> u <> s -> In v (g_vs (x u)) -> In w (g_vs (x s)) -> tw u v s w -> g_pt (gv (y u)) v <> PINTERIOR).
  { intros u v s w Hu Hs Ne Hv Hw T. destruct (Z.eq_dec (g_pt (gv (y u)) v) PGHOST) as [G|G]. rewrite G. discriminate. unfold on in *. assert (L : u < s \/ s < u) by lia. destruct L as [L|L].
    - rewrite (num_overlap _ _ _ _ _ NU u v Hu Hv G). discriminate. exists s, w. split. lia. auto.
    - exfalso. apply G. apply (num_ghost _ _ _ _ _ NU u v Hu Hv). exists s, w. split. lia. auto. }
  assert (C : concerned (conn_of (y p) (MESH_Set_Prtn (m p) p n)) t <-> (t = 0 \/ t = 1 \/ (t = 2 /\ g_rs (x p) <> []))).
  { unfold concerned. cbn [conn_of c_nr]. rewrite R. unfold ZL. destruct (g_rs (x p)) as [|r l]; cbn [length]; split; intros [X|[X|(X & X')]]; auto; right; right; split; auto; try discriminate; try (elim X'; reflexivity). }
  rewrite C. pose proof (new_unflagged n p (m p) q t (HM p Hp) Hq Ht) as U.
  split.
  - intros [X|(Ne & K & g & v & w & (O1 & O2) & (O3 & O4) & G1 & G2)]. elim U; exact X. split; auto. split; auto. cbn [conn_of c_vs c_gid] in *. rewrite V in O1. rewrite V' in O3. exists v, w. split; auto. split; auto.
    assert (E : g_id (gv (y p)) v = g_id (gv (y q)) w) by congruence. apply (SI p v q w Hp Hq O1 O3) in E. destruct E as [(E & _)|(_ & E)]; auto. elim Ne; auto.
  - intros (Ne & K & v & w & Hv & Hw & T). right. split; auto. split; auto. assert (E : g_id (gv (y p)) v = g_id (gv (y q)) w) by (apply (SI p v q w Hp Hq Hv Hw); right; split; auto).
    exists (g_id (gv (y p)) v), v, w. unfold outer. cbn [conn_of c_vs c_gid c_pt]. rewrite V, V'. split. split. auto. apply (SH p v q w); auto. split; [|split; auto]. split. auto.
    (* the other rank's vertex *)
    destruct (Z.eq_dec (g_pt (gv (y q)) w) PGHOST) as [G|G]. rewrite G. discriminate. unfold on in *. assert (L : q < p \/ p < q) by lia. destruct L as [L|L].
    + rewrite (num_overlap _ _ _ _ _ NU q w Hq Hw G). discriminate. exists p, v. split. lia. split; auto. apply (SI q w p v Hq Hp Hw Hv) in E || (symmetry in E; apply (SI q w p v Hq Hp Hw Hv) in E). destruct E as [(E & _)|(_ & E)]; auto. elim Ne; auto.
    + exfalso. apply G. apply (num_ghost _ _ _ _ _ NU q w Hq Hw). exists p, v. split. lia. split; auto. symmetry in E. apply (SI q w p v Hq Hp Hw Hv) in E. destruct E as [(E & _)|(_ & E)]; auto. elim Ne; auto.
Qed.
Lemma weave_run : forall N (x y : Z -> grank) (z : Z -> crank) junk m dim h k, 0 <= k -> let n := Z.of_nat N in (0 < N)%nat ->
  (forall lo, protocol n lo (lo + k) (fun p => MESH_AssignGlobalIDs (junk p) n p dim h (x p)) y) ->
  (forall lo, protocol n lo (lo + 2) (fun p => MESH_BuildConnection (junk p 3) n p (conn_of (y p) (MESH_Set_Prtn (m p) p n))) z) ->
  never_stuck_with n (fun p => weave_start (junk p) n p dim h (x p) (m p)) (fun p => (y p, z p)).
Proof.
  intros N x y z junk m dim h k Hk n HN P1 P2. apply (protocol_runs _ n 0 (k + 2)). unfold n; lia. unfold weave_start. cbv zeta.
  apply (protocol_bind _ _ n 0 k (k + 2) _ y (fun p y => pbind (MESH_BuildConnection (junk p 3) n p (conn_of y (MESH_Set_Prtn (m p) p n))) (fun z => Ret (y, z)))). lia. apply (P1 0).
  apply (protocol_bind _ _ n k (k + 2) (k + 2) _ z (fun p z => Ret (y p, z))). lia. apply P2. apply protocol_ret.
Qed.

(** ** Volume and surface meshes, by coordinates and by global IDs

    The meshes have no flags yet.  For volume meshes all steps come to an end under every
    schedule, and two ranks are connected exactly if they have a vertex at the same place. *)
Theorem C55_weave_points : forall N x a junk m, (0 < N)%nat -> let n := Z.of_nat N in before n x a -> before3 n x a -> by_points n x a -> (forall p, on n p -> pflags (m p) = None) ->
  exists y, never_stuck_with n (fun p => weave_start (junk p) n p 3 0 (x p) (m p)) y /\ connected n x (twin_xyz x a) (fun p => snd (y p)).
Proof.
  intros N x a junk m HN n B B3 P HM. destruct (points_first N x a junk HN B P) as (yv & P1 & O & F). destruct O as (NU & O). destruct (O (bp_fresh _ _ _ P)) as (BL & SI & RG).
  destruct (volume N x a junk 0 (twin_xyz x a) yv) as (ye & yf & yr & Q1 & _); try apply B; try apply B3; auto.
  destruct (weave_conn N x (fun p => final (x p) (yv p) (ye p) (yf p) (yr p)) (twin_xyz x a) (fun p => gv (x p)) (fun p => junk p 3) m HN) as (z & Z1 & Z2); auto.
  { intros p Hp. apply (part_vs _ _ (be_part _ _ _ B p Hp)). }
  eexists. split. eapply (weave_run N x _ z junk m 3 0 18); auto. lia. exact Z2.
Qed.
Print Assumptions C55_weave_points.
Theorem C55_weave_ids : forall N x a junk m h, (0 < N)%nat -> let n := Z.of_nat N in h <> 0 -> before n x a -> before3 n x a -> by_ids n x a -> (forall p, on n p -> pflags (m p) = None) ->
  exists y, never_stuck_with n (fun p => weave_start (junk p) n p 3 h (x p) (m p)) y /\ connected n x (same_id x) (fun p => snd (y p)).
Proof.
  intros N x a junk m h HN n Hh B B3 P HM. destruct (ids_first N x a junk h HN Hh B P) as (yv & P1 & NU & F & K & SI).
  assert (RG : forall p v, on n p -> In v (g_vs (x p)) -> 0 < g_id (yv p) v < 2 ^ 31) by (intros p v Hp Hv; rewrite K by auto; apply (bi_pos _ _ _ P); auto).
  destruct (volume N x a junk h (same_id x) yv) as (ye & yf & yr & Q1 & _); try apply B; try apply B3; auto.
  destruct (weave_conn N x (fun p => final (x p) (yv p) (ye p) (yf p) (yr p)) (same_id x) (fun p => gv (x p)) (fun p => junk p 3) m HN) as (z & Z1 & Z2); auto.
  { intros p Hp. apply (part_vs _ _ (be_part _ _ _ B p Hp)). }
  eexists. split. eapply (weave_run N x _ z junk m 3 h 18); auto. lia. exact Z2.
Qed.
Print Assumptions C55_weave_ids.
(** Surface meshes. *)
Theorem C55_weave_surface_points : forall N x a junk m, (0 < N)%nat -> let n := Z.of_nat N in before n x a -> by_points n x a -> (forall p, on n p -> pflags (m p) = None) ->
  exists y, never_stuck_with n (fun p => weave_start (junk p) n p 2 0 (x p) (m p)) y /\ connected n x (twin_xyz x a) (fun p => snd (y p)).
Proof.
  intros N x a junk m HN n B P HM. destruct (points_first N x a junk HN B P) as (yv & P1 & O & F). destruct O as (NU & O). destruct (O (bp_fresh _ _ _ P)) as (BL & SI & RG).
  destruct (surface N x a junk 0 (twin_xyz x a) yv) as (ye & yf & Q1 & _); try apply B; auto.
  destruct (weave_conn N x (fun p => final (x p) (yv p) (ye p) (yf p) (gr (x p))) (twin_xyz x a) (fun p => gv (x p)) (fun p => junk p 3) m HN) as (z & Z1 & Z2); auto.
  { intros p Hp. apply (part_vs _ _ (be_part _ _ _ B p Hp)). }
  eexists. split. eapply (weave_run N x _ z junk m 2 0 13); auto. lia. exact Z2.
Qed.
Print Assumptions C55_weave_surface_points.
Theorem C55_weave_surface_ids : forall N x a junk m h, (0 < N)%nat -> let n := Z.of_nat N in h <> 0 -> before n x a -> by_ids n x a -> (forall p, on n p -> pflags (m p) = None) ->
  exists y, never_stuck_with n (fun p => weave_start (junk p) n p 2 h (x p) (m p)) y /\ connected n x (same_id x) (fun p => snd (y p)).
Proof.
  intros N x a junk m h HN n Hh B P HM. destruct (ids_first N x a junk h HN Hh B P) as (yv & P1 & NU & F & K & SI).
  assert (RG : forall p v, on n p -> In v (g_vs (x p)) -> 0 < g_id (yv p) v < 2 ^ 31) by (intros p v Hp Hv; rewrite K by auto; apply (bi_pos _ _ _ P); auto).
  destruct (surface N x a junk h (same_id x) yv) as (ye & yf & Q1 & _); try apply B; auto.
  destruct (weave_conn N x (fun p => final (x p) (yv p) (ye p) (yf p) (gr (x p))) (same_id x) (fun p => gv (x p)) (fun p => junk p 3) m HN) as (z & Z1 & Z2); auto.
  { intros p Hp. apply (part_vs _ _ (be_part _ _ _ B p Hp)). }
  eexists. split. eapply (weave_run N x _ z junk m 2 h 13); auto. lia. exact Z2.
Qed.
Print Assumptions C55_weave_surface_ids.

(** ** Examples: the tables of flags after the parts used for C30 are woven together.  A
    word is 1 for vertices, 4 for edges, 16 for faces. *)
Definition tables (r : option (list (grank * crank))) : list (option (list Z)) := match r with Some l => map (fun y => pflags (c_p (snd y))) l | None => [] end.
Example C55_weave_points_ex : before 3 cube3 (fun _ => A0) /\ before3 3 cube3 (fun _ => A0) /\ by_points 3 cube3 (fun _ => A0) /\ pflags pmesh_new = None /\
  tables (sync 30 (map (fun p => weave_start (fun _ _ => 77) 3 p 3 0 (cube3 p) pmesh_new) (ranks 3))) = [Some [0; 21; 21]; Some [21; 0; 21]; Some [21; 21; 0]].
Proof. split. exact cube3_before. split. exact cube3_before3. split. exact cube3_points. split. reflexivity. vm_compute. reflexivity. Qed.
(** With IDs, where rank 0 has no twin on rank 2. *)
Definition line3i (p : Z) : grank := set_gv (cube3 p) (named (if p =? 0 then [40; 20; 30; 10; 50] else if p =? 1 then [60; 30; 50; 20; 70] else [70; 21; 51; 80; 90])).
Example C55_weave_ids_ex : before 3 line3i (fun _ => A0) /\ before3 3 line3i (fun _ => A0) /\ by_ids 3 line3i (fun _ => A0) /\ pflags pmesh_new = None /\
  tables (sync 30 (map (fun p => weave_start (fun _ _ => 50) 3 p 3 1 (line3i p) pmesh_new) (ranks 3))) = [Some [0; 21; 0]; Some [21; 0; 21]; Some [0; 21; 0]].
Proof.
  split. { destruct cube3_before as [B1 B2 B3 B4 B5 B6 B7]. constructor; auto. intros p Hp. apply part_gv. auto. }
  split. { destruct cube3_before3 as [B1 B2 B3 B4]. constructor; auto. }
  split; [|split; [reflexivity|vm_compute; reflexivity]].
  assert (C : forallb (fun p => forallb (fun v => (0 <? g_id (gv (line3i p)) v) && (g_id (gv (line3i p)) v <? 2 ^ 31) && forallb (fun w => (v =? w) || negb (g_id (gv (line3i p)) v =? g_id (gv (line3i p)) w)) [1; 2; 3; 4; 5]) [1; 2; 3; 4; 5]) [0; 1; 2] = true) by (vm_compute; reflexivity).
  rewrite forallb_forall in C. assert (IP : forall p, on 3 p -> In p [0; 1; 2]) by (unfold on; intros p Hp; cbn; lia). constructor.
  - intros p v Hp Hv. specialize (C p (IP p Hp)). rewrite forallb_forall in C. specialize (C v Hv). apply andb_true_iff in C. destruct C as (C & _). lia.
  - intros p v w Hp Hv Hw E. specialize (C p (IP p Hp)). rewrite forallb_forall in C. specialize (C v Hv). apply andb_true_iff in C. destruct C as (_ & C). rewrite forallb_forall in C. specialize (C w Hw). rewrite E, Z.eqb_refl in C. cbn [negb] in C. rewrite orb_false_r in C. apply Z.eqb_eq; auto.
  - intros p v q w Hp _ _ Hv _ _. apply bvert_all; auto.
Qed.
Example C55_weave_surface_points_ex : before 2 sq (fun _ => At) /\ by_points 2 sq (fun _ => At) /\
  tables (sync 30 (map (fun p => weave_start (fun _ _ => 77) 2 p 2 0 (sq p) pmesh_new) (ranks 2))) = [Some [0; 5]; Some [5; 0]].
Proof. split. exact sq_before. split. exact sq_points. vm_compute. reflexivity. Qed.
Example C55_weave_surface_ids_ex : before 2 sqi (fun _ => At) /\ by_ids 2 sqi (fun _ => At) /\
  tables (sync 30 (map (fun p => weave_start (fun _ _ => 4) 2 p 2 1 (sqi p) pmesh_new) (ranks 2))) = [Some [0; 5]; Some [5; 0]].
Proof. destruct C30_surface_ids_ex as (A & B & _). split. exact A. split. exact B. vm_compute. reflexivity. Qed.

(** ** What does not hold *)

(** The ranks side by side, one collective call after the other. *)
Fixpoint rounds {R} (k : nat) (l : list (prog R)) : list (prog R) :=
  match k with
  | O => l
  | S k' =>
      if forallb (fun p => match p with Col _ _ => true | _ => false end) l
      then rounds k' (map (fun p => match p with Col _ f => f (map (fun p => match p with Col x _ => x | _ => [] end) l) | _ => Fail end) l) else l
  end.
Lemma rounds_ok : forall {R} k n (w : world R), 0 <= n -> exists j w', exec n j w w' /\ forall p, on n p -> nth (Z.to_nat p) (rounds k (map (procs w) (ranks n))) Fail = procs w' p.
Proof.
  intros R k. assert (NTH : forall n (f : Z -> prog R) p, 0 <= n -> on n p -> nth (Z.to_nat p) (map f (ranks n)) Fail = f p) by (intros n f p Hn Hp; rewrite <- (Z2Nat.id n) in Hp |- * by lia; apply nth_ranks; auto).
  induction k as [|k IH]; intros n w Hn; cbn [rounds]. { exists 0%nat, w. split. constructor. auto. }
  destruct (forallb _ (map (procs w) (ranks n))) eqn:A; [|exists 0%nat, w; split; [constructor|auto]]. rewrite forallb_forall in A.
  set (x := fun p => match procs w p with Col x _ => x | _ => [] end). set (f := fun p xs => match procs w p with Col _ f => f xs | _ => Fail end).
  assert (S1 : sure n w (mkW (fun p => if (0 <=? p) && (p <? n) then f p (map x (ranks n)) else procs w p) (chan w))).
  { apply s_coll. intros p Hp. assert (I : In (procs w p) (map (procs w) (ranks n))) by (apply in_map, in_ranks; auto). specialize (A _ I). unfold x, f. destruct (procs w p); try discriminate. auto. }
  destruct (IH n (mkW (fun p => if (0 <=? p) && (p <? n) then f p (map x (ranks n)) else procs w p) (chan w)) Hn) as (j & w' & E & H). exists (S j), w'. split. econstructor. apply s_sure. exact S1. exact E.
  intros p Hp. rewrite <- (H p Hp). f_equal. f_equal. cbn [procs]. rewrite !map_map. apply map_ext_in. intros q Hq. apply in_ranks in Hq. unfold on in Hq. replace ((0 <=? q) && (q <? n)) with true by lia. reflexivity.
Qed.

(** A mesh that has flags keeps its table (Mesh.c 1175-1182): parts that were woven among
    two ranks before have too short a table for three.  With the parts of the first
    example rank 0 then writes the flag of rank 2 behind the end of its table. *)
Theorem C55_weave_again_refuted : exists x a m, before 3 x a /\ before3 3 x a /\ by_points 3 x a /\ (forall p, on 3 p -> m p = MESH_Set_Prtn pmesh_new (p mod 2) 2) /\
  exists k w, exec 3 k (init (fun p => weave_start (fun _ _ => 0) 3 p 3 0 (x p) (m p))) w /\ procs w 0 = Fail.
Proof.
  exists cube3, (fun _ => A0), (fun p => MESH_Set_Prtn pmesh_new (p mod 2) 2). split. exact cube3_before. split. exact cube3_before3. split. exact cube3_points. split. auto.
  destruct (rounds_ok 30 3 (init (fun p => weave_start (fun _ _ => 0) 3 p 3 0 (cube3 p) (MESH_Set_Prtn pmesh_new (p mod 2) 2)))) as (j & w & E & H). lia.
  exists j, w. split. exact E. rewrite <- (H 0) by (unfold on; lia).
  assert (X : match nth (Z.to_nat 0) (rounds 30 (map (procs (init (fun p => weave_start (fun _ _ => 0) 3 p 3 0 (cube3 p) (MESH_Set_Prtn pmesh_new (p mod 2) 2)))) (ranks 3))) Fail with Fail => true | _ => false end = true) by (vm_compute; reflexivity).
  revert X. match goal with |- match ?t with _ => _ end = true -> _ => destruct t end; intros X; try discriminate; reflexivity.
Qed.
Print Assumptions C55_weave_again_refuted.
