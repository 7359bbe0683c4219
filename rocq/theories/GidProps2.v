(** C30: examples and what does not hold. *)
From Coq Require Import ZArith List Lia Bool Arith ZifyBool ZifyNat Permutation Sorting.Sorted Floats.SpecFloat.
From Verif Require Import Base BaseProofs ListSpec SortModel CompareModel CompareProps MeshModel AttModel AttProps TopoModel TopoSpec TopoProofs TopoProofs2 TopoProps TopoProps2 ParModel ParProps CommModel CommProofs CommProofs2 ExchModel ExchProofs ExchProofs2 LabelModel LabelProofs LabelProps ElGraphProps GidModel GidProofs GidProofs2 GidProofs3 CoorProofs GidProofs4 GidProofs5 GidProofs6 GidProofs7 GidProps.
Import ListNotations.
Open Scope Z_scope.

(** ** Checking a concrete part *)
Definition ids (a : amesh) : list Z := zrange 1 (a_next a).
Definition memb (x : Z) (l : list Z) : bool := existsb (Z.eqb x) l.
Definition endb (a : amesh) (e v : Z) : bool := match a_e a e with Some (true, (v0, v1)) => (v0 =? v) || (v1 =? v) | _ => false end.
Definition hasb (a : amesh) (f e : Z) : bool := match a_f a f with Some (true, Some b) => memb e (map fst b) | _ => false end.
Definition fvb (a : amesh) (f v : Z) : bool := existsb (fun e => hasb a f e && endb a e v) (ids a).
Definition hangsb (a : amesh) (s : bool) (v : Z) : bool :=
  if s then existsb (fun f => fvb a f v) (ids a) else existsb (fun e => endb a e v) (ids a) && forallb (fun e => negb (endb a e v) || existsb (fun f => hasb a f e) (ids a)) (ids a).
Fixpoint ndb (l : list Z) : bool := match l with [] => true | x :: l' => negb (memb x l') && ndb l' end.
Definition edgeb (x : grank) (a : amesh) (e : Z) : bool := match a_e a e with Some (true, (v, w)) => memb v (g_vs x) && memb w (g_vs x) | _ => false end.
Definition pairb (a : amesh) (e e' : Z) : bool := (e =? e') || negb (let (v, w) := ends a e in let (v', w') := ends a e' in ((v =? v') && (w =? w')) || ((v =? w') && (w =? v'))).
Definition partb (x : grank) (a : amesh) : bool :=
  ndb (g_vs x) && forallb (fun v => match a_v a v with Some _ => true | None => false end && hangsb a (solid x) v) (g_vs x) &&
  (ndb (g_es x) && forallb (edgeb x a) (g_es x)) && forallb (fun e => forallb (pairb a e) (g_es x)) (g_es x) &&
  (ndb (g_fs x) && forallb (fun f => goodfb a f && forallb (fun e => negb (hasb a f e) || edgeb x a e) (ids a)) (g_fs x)) &&
  forallb (fun f => forallb (fun f' => (f =? f') || existsb (fun v => xorb (fvb a f v) (fvb a f' v)) (ids a)) (g_fs x)) (g_fs x) && ndb (g_rs x).

Lemma memb_ok : forall x l, memb x l = true <-> In x l.
Proof. intros x l. unfold memb. rewrite existsb_exists. split. intros (y & H & E). apply Z.eqb_eq in E. subst; auto. intros H. exists x. split; auto. apply Z.eqb_refl. Qed.
Lemma ndb_ok : forall l, ndb l = true -> NoDup l.
Proof. induction l as [|x l IH]; intros H; constructor; cbn [ndb] in H; apply andb_true_iff in H; destruct H as (H1 & H2); auto. intros C. apply memb_ok in C. rewrite C in H1. discriminate. Qed.
Lemma endb_ok : forall a e v, endb a e v = true <-> is_end a e v.
Proof.
  intros a e v. unfold endb, is_end. destruct (a_e a e) as [[[] [v0 v1]]|]; split; intros H; try discriminate.
  - exists v0, v1. split; auto. apply orb_true_iff in H. destruct H as [H|H]; apply Z.eqb_eq in H; auto.
  - destruct H as (u & w & E & H). inversion E; subst. apply orb_true_iff. destruct H as [->| ->]; rewrite Z.eqb_refl; auto.
  - destruct H as (u & w & E & H). discriminate.
  - destruct H as (u & w & E & H). discriminate.
Qed.
Lemma hasb_ok : forall a f e, hasb a f e = true <-> has_edge a f e.
Proof.
  intros a f e. unfold hasb, has_edge. destruct (a_f a f) as [[[] [b|]]|]; split; intros H; try discriminate; try (destruct H as (b' & E & H); discriminate).
  - exists b. split; auto. apply memb_ok; auto.
  - destruct H as (b' & E & H). inversion E; subst. apply memb_ok; auto.
Qed.
Section Check.
  Variables (x : grank) (a : amesh).
  Hypothesis R : reach (g_t x) a.
  Lemma e_ids : forall e, a_e a e <> None -> In e (ids a).
  Proof. intros e H. apply zrange_in. apply (w_e _ (i_w _ _ (reach_inv _ _ R))) in H. lia. Qed.
  Lemma f_ids : forall f, a_f a f <> None -> In f (ids a).
  Proof. intros f H. apply zrange_in. apply (w_f _ (i_w _ _ (reach_inv _ _ R))) in H. lia. Qed.
  Lemma fvb_ok : forall f v, fvb a f v = true <-> f_vertex a f v.
  Proof.
    intros f v. unfold fvb, f_vertex. rewrite existsb_exists. split.
    - intros (e & _ & H). apply andb_true_iff in H. destruct H as (H1 & H2). exists e. rewrite <- hasb_ok, <- endb_ok. auto.
    - intros (e & H1 & H2). exists e. split. apply e_ids. destruct H2 as (u & w & E & _). congruence. apply andb_true_iff. rewrite hasb_ok, endb_ok. auto.
  Qed.
  Lemma partb_ok : partb x a = true -> part x a.
  Proof.
    unfold partb. rewrite !andb_true_iff, !forallb_forall. intros ((((((V1 & V2) & E1 & E2) & E3) & F1 & F2) & F3) & R1). constructor; auto.
    - split. apply ndb_ok; auto. intros v Hv. apply V2 in Hv. apply andb_true_iff in Hv. destruct Hv as (A & B). split. destruct (a_v a v); congruence. unfold hangsb, hangs in *. destruct (solid x).
      + apply existsb_exists in B. destruct B as (f & _ & B). apply fvb_ok in B. destruct B as (e & B1 & B2). exists f, e. auto.
      + apply andb_true_iff in B. destruct B as (B1 & B2). split. apply existsb_exists in B1. destruct B1 as (e & _ & B1). exists e. apply endb_ok; auto. intros e He. rewrite forallb_forall in B2. specialize (B2 e). assert (I : In e (ids a)) by (apply e_ids; destruct He as (u & w & E & _); congruence). specialize (B2 I). apply endb_ok in He. rewrite He in B2. cbn [negb orb] in B2. apply existsb_exists in B2. destruct B2 as (f & _ & B2). exists f. apply hasb_ok; auto.
    - split. apply ndb_ok; auto. intros e He. apply E2 in He. unfold edgeb in He. destruct (a_e a e) as [[[] [v w]]|]; try discriminate. apply andb_true_iff in He. rewrite !memb_ok in He. exists v, w. tauto.
    - intros e e' v w v' w' He He' A A' Q. specialize (E3 e He). rewrite forallb_forall in E3. specialize (E3 e' He'). unfold pairb, ends in E3. rewrite A, A' in E3. destruct (Z.eqb_spec e e'); auto. exfalso. cbn [orb] in E3. destruct Q as [(-> & ->)|(-> & ->)]; rewrite !Z.eqb_refl in E3; cbn in E3; [|rewrite orb_true_r in E3]; discriminate.
    - split. apply ndb_ok; auto. intros f Hf. apply F2 in Hf. apply andb_true_iff in Hf. destruct Hf as (A & B). split. apply goodfb_ok; auto. intros v (e & H1 & H2). rewrite forallb_forall in B. assert (I : In e (ids a)) by (apply e_ids; destruct H2 as (u & w & E & _); congruence). specialize (B e I). apply hasb_ok in H1. rewrite H1 in B. cbn [negb orb] in B. unfold edgeb in B. destruct H2 as (u & w & E & Q). rewrite E in B. apply andb_true_iff in B. rewrite !memb_ok in B. destruct Q as [<-|<-]; tauto.
    - intros f f' Hf Hf' Q. specialize (F3 f Hf). rewrite forallb_forall in F3. specialize (F3 f' Hf'). apply orb_true_iff in F3. destruct F3 as [F3|F3]. apply Z.eqb_eq; auto. exfalso. apply existsb_exists in F3. destruct F3 as (v & _ & F3). assert (fvb a f v = fvb a f' v). { specialize (Q v). rewrite <- !fvb_ok in Q. destruct (fvb a f v), (fvb a f' v); intuition. } rewrite H in F3. rewrite xorb_nilpotent in F3. discriminate.
    - apply ndb_ok; auto.
  Qed.
  Lemma few_ok : a_next a <= 30 -> forall f, few_vertices a f.
  Proof.
    intros L f l ND H. pose proof (i_w _ _ (reach_inv _ _ R)) as W. assert (I : incl l (0 :: ids a)). { intros v Hv. destruct (H v Hv) as (e & _ & (v0 & v1 & E & Q)). destruct (w_ends _ W e v0 v1 E) as (Q0 & Q1). assert (v = 0 \/ live_v a v) by (destruct Q as [<-|<-]; auto). destruct H0 as [->|H0]. left; auto. right. apply zrange_in. assert (a_v a v <> None) by (unfold live_v in H0; congruence). apply (w_v _ W) in H1. lia. }
    pose proof (NoDup_incl_length ND I) as K. cbn [length] in K. unfold ids in K. rewrite zrange_length in K. lia.
  Qed.
End Check.

(** ** Two tetrahedra on each of three ranks

    Rank 1 shares a face with rank 0, rank 2 an edge with ranks 0 and 1 and a face with
    rank 1. *)
Definition fl (k : Z) : Z := nth (Z.to_nat k) [0; 4607182418800017408; 4611686018427387904; 4613937818241073152] 0.  (* 0.0, 1.0, 2.0, 3.0 *)
Definition at3 (l : list (Z * Z * Z)) (v : ptr) : list Z := match nth (Z.to_nat (v - 1)) l (0, 0, 0) with (i, j, k) => [fl i; fl j; fl k] end.
Definition clean : gents := mkE (fun _ => 0) (fun _ => PINTERIOR) (fun _ => 0) (fun _ => false).
Definition A0 := arun amesh0 tets.
Definition tetrank (l : list (Z * Z * Z)) : grank := mkG 0 T0 [1; 2; 3; 4; 5] [6; 7; 8; 9; 10; 11; 12; 13; 14] [15; 16; 17; 18; 19; 20; 21] [22; 23] (fun v => v) (at3 l) clean clean clean clean.
Definition pts (p : Z) : list (Z * Z * Z) :=
  if p =? 0 then [(0, 0, 0); (1, 0, 0); (0, 1, 0); (0, 0, 1); (1, 1, 1)]
  else if p =? 1 then [(2, 2, 2); (0, 1, 0); (1, 1, 1); (1, 0, 0); (3, 0, 0)]
  else [(3, 0, 0); (1, 0, 0); (1, 1, 1); (3, 3, 3); (3, 3, 0)].
Definition cube3 (p : Z) : grank := tetrank (pts p).
Lemma on3 : forall p, on 3 p -> p = 0 \/ p = 1 \/ p = 2.
Proof. intros p H. unfold on in H. lia. Qed.
Lemma cube3_before : before 3 cube3 (fun _ => A0).
Proof.
  constructor; try (intros p e _ _; discriminate).
  - intros p Hp. apply partb_ok. exact T0_reach. destruct (on3 p Hp) as [->|[->| ->]]; vm_compute; reflexivity.
  - reflexivity.
  - reflexivity.
  - reflexivity.
Qed.
Lemma cube3_before3 : before3 3 cube3 (fun _ => A0).
Proof.
  constructor; try (intros p e _ _; discriminate).
  - intros p f _ _. apply (few_ok (cube3 p)). exact T0_reach. vm_compute. discriminate.
  - reflexivity.
Qed.
Definition all_pts : list (list Z) := flat_map (fun p => map (at3 (pts p)) [1; 2; 3; 4; 5]) [0; 1; 2].
Definition apartb (k k' : list Z) : bool := forallb (fun i => let d := Z.abs (ax k i - ax k' i) in (d <=? tolz) || (2 * tolz <? d)) [0; 1; 2]%nat.
Definition sameb (k k' : list Z) : bool := forallb (fun i => Z.abs (ax k i - ax k' i) <=? tolz) [0; 1; 2]%nat.
Lemma sameb_ok : forall k k', same_point k k' -> sameb k k' = true.
Proof. intros k k' H. apply forallb_forall. intros i Hi. assert (i < 3)%nat by (cbn in Hi; lia). specialize (H i H0). lia. Qed.
Lemma sep_ok : forall (K : list Z -> Prop) l, (forall k, K k -> In k l) -> forallb (fun k => forallb (apartb k) l) l = true -> separated K.
Proof.
  intros K l I H k k' Hk Hk' i Hi. rewrite forallb_forall in H. specialize (H k (I k Hk)). rewrite forallb_forall in H. specialize (H k' (I k' Hk')). unfold apartb in H. rewrite forallb_forall in H. specialize (H i). assert (Ii : In i [0; 1; 2]%nat) by (cbn; lia). specialize (H Ii). cbv zeta in H. lia.
Qed.
Lemma real_ok : forall l k, forallb (fun k => (length k =? 3)%nat && forallb (fun b => negb ((b / 2 ^ 52) mod 2 ^ 11 =? 2 ^ 11 - 1)) k) l = true -> In k l -> real_point k.
Proof. intros l k H Hk. rewrite forallb_forall in H. specialize (H k Hk). apply andb_true_iff in H. destruct H as (H1 & H2). split. apply Nat.eqb_eq; auto. apply Forall_forall. intros b Hb. rewrite forallb_forall in H2. specialize (H2 b Hb). unfold finite64. lia. Qed.
Lemma cube3_points : by_points 3 cube3 (fun _ => A0).
Proof.
  constructor.
  - intros p v Hp (Hv & _). apply (real_ok all_pts). vm_compute; reflexivity. unfold all_pts. apply in_flat_map. exists p. split. destruct (on3 p Hp) as [->|[->| ->]]; cbn; auto. apply in_map. auto.
  - apply (sep_ok _ all_pts). 2: vm_compute; reflexivity. intros k (p & v & Hp & (Hv & _) & ->). unfold all_pts. apply in_flat_map. exists p. split. destruct (on3 p Hp) as [->|[->| ->]]; cbn; auto. apply in_map. auto.
  - intros p v w Hp (Hv & _) (Hw & _) Q. apply sameb_ok in Q. unfold cube3, tetrank, g_xyz in *. cbn [g_vs In] in Hv, Hw.
    assert (C : forallb (fun p => forallb (fun v => forallb (fun w => (v =? w) || negb (sameb (at3 (pts p) v) (at3 (pts p) w))) [1; 2; 3; 4; 5]) [1; 2; 3; 4; 5]) [0; 1; 2] = true) by (vm_compute; reflexivity).
    rewrite forallb_forall in C. specialize (C p). assert (Ip : In p [0; 1; 2]) by (destruct (on3 p Hp) as [->|[->| ->]]; cbn; auto). specialize (C Ip). rewrite forallb_forall in C. specialize (C v Hv). rewrite forallb_forall in C. specialize (C w Hw). rewrite Q in C. cbn [negb] in C. rewrite orb_false_r in C. apply Z.eqb_eq; auto.
  - intros p v _ _. reflexivity.
Qed.
(** The collective programs side by side. *)
Fixpoint sync {R} (k : nat) (l : list (prog R)) : option (list R) :=
  match k with
  | O => None
  | S k' =>
      match l with
      | [] => Some []
      | Ret _ :: _ => fold_right (fun p acc => match p, acc with Ret r, Some rs => Some (r :: rs) | _, _ => None end) (Some []) l
      | _ => let xs := map (fun p => match p with Col x _ => x | _ => [] end) l in
             if forallb (fun p => match p with Col _ _ => true | _ => false end) l then sync k' (map (fun p => match p with Col _ f => f xs | _ => Fail end) l) else None
      end
  end.
Lemma fold_ret : forall {R} (l : list (prog R)) rs, fold_right (fun p acc => match p, acc with Ret r, Some rs => Some (r :: rs) | _, _ => None end) (Some []) l = Some rs -> l = map Ret rs.
Proof.
  intros R l. induction l as [|p l IH]; intros rs H; cbn [fold_right] in H. inversion H; auto. destruct p; try discriminate. destruct (fold_right _ _ l) as [rs'|] eqn:E; try discriminate. inversion H. cbn [map]. f_equal. auto.
Qed.
(** They are then a protocol, whatever the schedule. *)
Lemma sync_ok : forall {R} (d : R) k n (ps : Z -> prog R) rs, 0 < n -> sync k (map ps (ranks n)) = Some rs -> forall lo, protocol n lo (lo + Z.of_nat k) ps (fun p => nth (Z.to_nat p) rs d).
Proof.
  intros R d k. induction k as [|k IH]; intros n ps rs Hn H lo; [discriminate|]. cbn [sync] in H. set (l := map ps (ranks n)) in *.
  assert (NTH : forall p, on n p -> nth (Z.to_nat p) l Fail = ps p).
  { intros p Hp. unfold l. rewrite <- (Z2Nat.id n) in Hp |- * by lia. apply nth_ranks. auto. }
  assert (LEN : length l = Z.to_nat n) by (unfold l, ranks; rewrite !map_length, seq_length; lia).
  assert (RETS : fold_right (fun p acc => match p, acc with Ret r, Some rs => Some (r :: rs) | _, _ => None end) (Some []) l = Some rs -> protocol n lo (lo + Z.of_nat (S k)) ps (fun p => nth (Z.to_nat p) rs d)).
  { intros F. apply fold_ret in F. apply protocol_ext with (qs := fun p => Ret (nth (Z.to_nat p) rs d)); [|apply protocol_ret]. intros p Hp. rewrite <- NTH by auto. rewrite F. rewrite (nth_indep _ Fail (Ret d)). apply map_nth. rewrite F in LEN. unfold on in Hp. lia. }
  assert (COLS : (if forallb (fun p => match p with Col _ _ => true | _ => false end) l then sync k (map (fun p => match p with Col _ f => f (map (fun p => match p with Col x _ => x | _ => [] end) l) | _ => Fail end) l) else None) = Some rs -> protocol n lo (lo + Z.of_nat (S k)) ps (fun p => nth (Z.to_nat p) rs d)).
  { intros F. destruct (forallb _ l) eqn:A; [|discriminate]. rewrite forallb_forall in A. set (x := fun p => match ps p with Col x _ => x | _ => [] end). set (f := fun p xs => match ps p with Col _ f => f xs | _ => Fail end).
    apply protocol_ext with (qs := fun p => Col (x p) (f p)).
    { intros p Hp. assert (I : In (ps p) l) by (apply in_map, in_ranks; auto). specialize (A _ I). unfold x, f. destruct (ps p); try discriminate. auto. }
    apply protocol_col. lia. replace (lo + Z.of_nat (S k)) with (lo + 1 + Z.of_nat k) by lia. apply IH; auto. rewrite <- F. f_equal. unfold l. rewrite !map_map. auto. }
  destruct l as [|p0 l0] eqn:EL. cbn [length] in LEN. lia. destruct p0; auto.
Qed.
Definition gids (r : option (list grank)) : list (list (list Z)) :=
  match r with
  | Some l => map (fun y => [map (g_id (gv y)) (g_vs y); map (g_pt (gv y)) (g_vs y); map (g_id (ge y)) (g_es y); map (g_pt (ge y)) (g_es y); map (g_id (gf y)) (g_fs y); map (g_pt (gf y)) (g_fs y); map (g_id (gr y)) (g_rs y)]) l
  | None => []
  end.
Lemma sync_runs : forall {R} (d : R) k n (ps : Z -> prog R) rs, 0 < n -> sync k (map ps (ranks n)) = Some rs -> never_stuck_with n ps (fun p => nth (Z.to_nat p) rs d).
Proof. intros R d k n ps rs Hn H. apply (protocol_runs _ n 0 (0 + Z.of_nat k)); auto. apply sync_ok; auto. Qed.
Example C30_volume_points_ex : before 3 cube3 (fun _ => A0) /\ before3 3 cube3 (fun _ => A0) /\ by_points 3 cube3 (fun _ => A0) /\
  gids (sync 30 (map (fun p => MESH_AssignGlobalIDs (fun _ _ => 77) 3 p 3 0 (cube3 p)) (ranks 3))) =
  [[[1; 2; 3; 4; 5]; [0; 1; 1; 0; 1]; [1; 2; 3; 4; 5; 6; 7; 8; 9]; [0; 0; 0; 1; 0; 0; 1; 1; 0]; [1; 2; 3; 4; 5; 6; 7]; [0; 0; 0; 0; 1; 0; 0]; [1; 2]];
   [[6; 3; 5; 2; 7]; [0; 3; 3; 3; 1]; [10; 11; 12; 8; 4; 7; 13; 14; 15]; [0; 0; 0; 3; 3; 3; 0; 1; 1]; [8; 9; 5; 10; 11; 12; 13]; [0; 0; 3; 0; 0; 1; 0]; [3; 4]];
   [[7; 2; 5; 8; 9]; [3; 3; 3; 0; 0]; [15; 14; 16; 7; 17; 18; 19; 20; 21]; [3; 3; 0; 3; 0; 0; 0; 0; 0]; [12; 14; 15; 16; 17; 18; 19]; [3; 0; 0; 0; 0; 0; 0]; [5; 6]]].
Proof. split. exact cube3_before. split. exact cube3_before3. split. exact cube3_points. vm_compute. reflexivity. Qed.

(** The same parts with IDs for the vertices. *)
Definition named (l : list Z) : gents := mkE (fun v => nth (Z.to_nat (v - 1)) l 0) (fun _ => PINTERIOR) (fun _ => 0) (fun _ => false).
Definition nids (p : Z) : list Z := if p =? 0 then [40; 20; 30; 10; 50] else if p =? 1 then [60; 30; 50; 20; 70] else [70; 20; 50; 80; 90].
Definition ided3 (p : Z) : grank := set_gv (cube3 p) (named (nids p)).
Lemma bvert_all : forall x v, g_t x = T0 -> solid x = true -> In v [1; 2; 3; 4; 5] -> In v (g_vs x) -> bvert x A0 v.
Proof.
  intros x v T So Hv Hi. split; auto. right. rewrite So. cbn [open_at]. pose proof (reach_inv _ _ T0_reach) as I.
  assert (U : forall f r0 r1 d, f_vertex A0 f v -> In f [15; 16; 18; 19; 20; 21] -> a_r A0 22 = Some (true, Some r0) -> a_r A0 23 = Some (true, Some r1) -> (if memb f (map fst r0) then negb (memb f (map fst r1)) else true) = true -> d = true ->
    exists f, v_face A0 v f /\ forall r r', (exists d, has_face A0 r f d) -> (exists d, has_face A0 r' f d) -> r = r').
  { intros f r0 r1 _ (e & F1 & F2) _ R0 R1 M _. exists f. split. exists e; auto.
    assert (ON : forall r, (exists d, has_face A0 r f d) -> (r = 22 /\ memb f (map fst r0) = true) \/ (r = 23 /\ memb f (map fst r1) = true)).
    { intros r (d & b & Hb & Hf). assert (Hr : 1 <= r < a_next A0) by (apply (w_r _ (i_w _ _ I)); fold A0; congruence). assert (C : forallb (fun r => match a_r A0 r with Some _ => (r =? 22) || (r =? 23) | None => true end) (zrange 1 (a_next A0)) = true) by (vm_compute; reflexivity). rewrite forallb_forall in C. specialize (C r). rewrite Hb in C. assert (Q : (r =? 22) || (r =? 23) = true) by (apply C; apply zrange_in; lia). assert (r = 22 \/ r = 23) by lia. destruct H as [->| ->]; [left|right]; (split; auto; apply memb_ok; change f with (fst (f, d)); apply in_map; congruence). }
    intros r r' H H'. apply ON in H. apply ON in H'. destruct H as [(-> & H)|(-> & H)]; destruct H' as [(-> & H')|(-> & H')]; auto; rewrite ?H, ?H' in M; cbn in M; discriminate. }
  assert (V : forall f, fvb A0 f v = true -> In f [15; 16; 18; 19; 20; 21] -> exists f, v_face A0 v f /\ forall r r', (exists d, has_face A0 r f d) -> (exists d, has_face A0 r' f d) -> r = r').
  { intros f Hf Hi'. eapply (U f _ _ true); [|exact Hi'|vm_compute; reflexivity|vm_compute; reflexivity| |auto]. apply (fvb_ok (cube3 0) A0 T0_reach); auto. cbn in Hi'. decompose [or] Hi'; subst; try reflexivity. contradiction. }
  cbn in Hv. decompose [or] Hv; subst; [apply (V 15)|apply (V 15)|apply (V 15)|apply (V 16)|apply (V 19)|contradiction]; try (vm_compute; reflexivity); cbn; auto 10.
Qed.
Lemma ided3_before : before 3 ided3 (fun _ => A0).
Proof.
  destruct cube3_before as [B1 B2 B3 B4 B5 B6 B7]. constructor; auto. intros p Hp. apply part_gv. auto.
Qed.
Lemma ided3_before3 : before3 3 ided3 (fun _ => A0).
Proof. destruct cube3_before3 as [B1 B2 B3 B4]. constructor; auto. Qed.
Lemma ided3_ids : by_ids 3 ided3 (fun _ => A0).
Proof.
  constructor.
  - intros p v Hp Hv. assert (C : forallb (fun p => forallb (fun v => (0 <? g_id (gv (ided3 p)) v) && (g_id (gv (ided3 p)) v <? 2 ^ 31)) [1; 2; 3; 4; 5]) [0; 1; 2] = true) by (vm_compute; reflexivity). rewrite forallb_forall in C. specialize (C p). assert (Ip : In p [0; 1; 2]) by (destruct (on3 p Hp) as [->|[->| ->]]; cbn; auto). specialize (C Ip). rewrite forallb_forall in C. specialize (C v Hv). lia.
  - intros p v w Hp Hv Hw E. assert (C : forallb (fun p => forallb (fun v => forallb (fun w => (v =? w) || negb (g_id (gv (ided3 p)) v =? g_id (gv (ided3 p)) w)) [1; 2; 3; 4; 5]) [1; 2; 3; 4; 5]) [0; 1; 2] = true) by (vm_compute; reflexivity). rewrite forallb_forall in C. specialize (C p). assert (Ip : In p [0; 1; 2]) by (destruct (on3 p Hp) as [->|[->| ->]]; cbn; auto). specialize (C Ip). rewrite forallb_forall in C. specialize (C v Hv). rewrite forallb_forall in C. specialize (C w Hw). rewrite E, Z.eqb_refl in C. cbn [negb] in C. rewrite orb_false_r in C. apply Z.eqb_eq; auto.
  - intros p v q w Hp _ _ Hv _ _. apply bvert_all; auto.
Qed.
Example C30_volume_ids_ex : before 3 ided3 (fun _ => A0) /\ before3 3 ided3 (fun _ => A0) /\ by_ids 3 ided3 (fun _ => A0) /\
  gids (sync 30 (map (fun p => MESH_AssignGlobalIDs (fun _ _ => 77) 3 p 3 1 (ided3 p)) (ranks 3))) =
  [[[40; 20; 30; 10; 50]; [0; 1; 1; 0; 1]; [1; 2; 3; 4; 5; 6; 7; 8; 9]; [0; 0; 0; 1; 0; 0; 1; 1; 0]; [1; 2; 3; 4; 5; 6; 7]; [0; 0; 0; 0; 1; 0; 0]; [1; 2]];
   [[60; 30; 50; 20; 70]; [0; 3; 3; 3; 1]; [10; 11; 12; 8; 4; 7; 13; 14; 15]; [0; 0; 0; 3; 3; 3; 0; 1; 1]; [8; 9; 5; 10; 11; 12; 13]; [0; 0; 3; 0; 0; 1; 0]; [3; 4]];
   [[70; 20; 50; 80; 90]; [3; 3; 3; 0; 0]; [15; 14; 16; 7; 17; 18; 19; 20; 21]; [3; 3; 0; 3; 0; 0; 0; 0; 0]; [12; 14; 15; 16; 17; 18; 19]; [3; 0; 0; 0; 0; 0; 0]; [5; 6]]].
Proof. split. exact ided3_before. split. exact ided3_before3. split. exact ided3_ids. vm_compute. reflexivity. Qed.

(** ** Two triangles on each of two ranks, with an edge in common *)
Definition tris : list top := [TNewV; TNewV; TNewV; TNewV;
  TNewE; TSetVertex 5 false 1; TSetVertex 5 true 2; TNewE; TSetVertex 6 false 2; TSetVertex 6 true 3; TNewE; TSetVertex 7 false 3; TSetVertex 7 true 1;
  TNewE; TSetVertex 8 false 3; TSetVertex 8 true 4; TNewE; TSetVertex 9 false 4; TSetVertex 9 true 1;
  TNewF; TSetEdges 10 [(5, true); (6, true); (7, true)]; TNewF; TSetEdges 11 [(7, false); (8, true); (9, true)]].
Definition Tt : topo := TopoProps.done (trun empty_topo tris).
Definition At := arun amesh0 tris.
Lemma Tt_reach : reach Tt At.
Proof.
  assert (H : tallowed amesh0 tris) by (apply tallowedb_ok with (t := empty_topo); [exact inv0|vm_compute; reflexivity]).
  destruct (trun_ok tris _ _ inv0 H) as (t & E & I). exists tris. split; [exact H|]. split; [unfold Tt; rewrite E; reflexivity|reflexivity].
Qed.
Definition tpts (p : Z) : list (Z * Z * Z) := if p =? 0 then [(0, 0, 0); (1, 0, 0); (1, 1, 0); (0, 1, 0)] else [(2, 1, 0); (1, 1, 0); (1, 0, 0); (2, 0, 0)].
Definition sq (p : Z) : grank := mkG 0 Tt [1; 2; 3; 4] [5; 6; 7; 8; 9] [10; 11] [] (fun v => v) (at3 (tpts p)) clean clean clean clean.
Lemma on2 : forall p, on 2 p -> p = 0 \/ p = 1.
Proof. intros p H. unfold on in H. lia. Qed.
Lemma sq_before : before 2 sq (fun _ => At).
Proof.
  constructor; try (intros p e _ _; discriminate); try reflexivity.
  intros p Hp. apply partb_ok. exact Tt_reach. destruct (on2 p Hp) as [->| ->]; vm_compute; reflexivity.
Qed.
Definition sq_pts : list (list Z) := flat_map (fun p => map (at3 (tpts p)) [1; 2; 3; 4]) [0; 1].
Lemma sq_points : by_points 2 sq (fun _ => At).
Proof.
  constructor.
  - intros p v Hp (Hv & _). apply (real_ok sq_pts). vm_compute; reflexivity. unfold sq_pts. apply in_flat_map. exists p. split. destruct (on2 p Hp) as [->| ->]; cbn; auto. apply in_map. auto.
  - apply (sep_ok _ sq_pts). 2: vm_compute; reflexivity. intros k (p & v & Hp & (Hv & _) & ->). unfold sq_pts. apply in_flat_map. exists p. split. destruct (on2 p Hp) as [->| ->]; cbn; auto. apply in_map. auto.
  - intros p v w Hp (Hv & _) (Hw & _) Q. apply sameb_ok in Q. unfold sq, g_xyz in *. cbn [g_vs] in Hv, Hw.
    assert (C : forallb (fun p => forallb (fun v => forallb (fun w => (v =? w) || negb (sameb (at3 (tpts p) v) (at3 (tpts p) w))) [1; 2; 3; 4]) [1; 2; 3; 4]) [0; 1] = true) by (vm_compute; reflexivity).
    rewrite forallb_forall in C. specialize (C p). assert (Ip : In p [0; 1]) by (destruct (on2 p Hp) as [->| ->]; cbn; auto). specialize (C Ip). rewrite forallb_forall in C. specialize (C v Hv). rewrite forallb_forall in C. specialize (C w Hw). rewrite Q in C. cbn [negb] in C. rewrite orb_false_r in C. apply Z.eqb_eq; auto.
  - intros p v _ _. reflexivity.
Qed.
Example C30_surface_points_ex : before 2 sq (fun _ => At) /\ by_points 2 sq (fun _ => At) /\
  gids (sync 30 (map (fun p => MESH_AssignGlobalIDs (fun _ _ => 77) 2 p 2 0 (sq p)) (ranks 2))) =
  [[[1; 2; 3; 4]; [0; 1; 1; 0]; [1; 2; 3; 4; 5]; [0; 1; 0; 0; 0]; [1; 2]; [0; 0]; []]; [[5; 3; 2; 6]; [0; 3; 3; 0]; [6; 2; 7; 8; 9]; [0; 3; 0; 0; 0]; [3; 4]; [0; 0]; []]].
Proof. split. exact sq_before. split. exact sq_points. vm_compute. reflexivity. Qed.

(** With IDs, and the vertices already flagged. *)
Definition flagged (l : list Z) : gents := mkE (fun v => nth (Z.to_nat (v - 1)) l 0) (fun _ => PINTERIOR) (fun _ => 0) (fun _ => true).
Definition sqi (p : Z) : grank := set_gv (sq p) (flagged (if p =? 0 then [31; 9; 4; 12] else [22; 4; 9; 7])).
Example C30_surface_ids_ex : before 2 sqi (fun _ => At) /\ by_ids 2 sqi (fun _ => At) /\
  gids (sync 30 (map (fun p => MESH_AssignGlobalIDs (fun _ _ => 77) 2 p 2 1 (sqi p)) (ranks 2))) =
  [[[31; 9; 4; 12]; [0; 1; 1; 0]; [1; 2; 3; 4; 5]; [0; 1; 0; 0; 0]; [1; 2]; [0; 0]; []]; [[22; 4; 9; 7]; [0; 3; 3; 0]; [6; 2; 7; 8; 9]; [0; 3; 0; 0; 0]; [3; 4]; [0; 0]; []]].
Proof.
  split; [|split].
  - destruct sq_before as [B1 B2 B3 B4 B5 B6 B7]. constructor; auto. intros p Hp. apply part_gv. auto.
  - constructor.
    + intros p v Hp Hv. assert (C : forallb (fun p => forallb (fun v => (0 <? g_id (gv (sqi p)) v) && (g_id (gv (sqi p)) v <? 2 ^ 31)) [1; 2; 3; 4]) [0; 1] = true) by (vm_compute; reflexivity). rewrite forallb_forall in C. specialize (C p). assert (Ip : In p [0; 1]) by (destruct (on2 p Hp) as [->| ->]; cbn; auto). specialize (C Ip). rewrite forallb_forall in C. specialize (C v Hv). lia.
    + intros p v w Hp Hv Hw E. assert (C : forallb (fun p => forallb (fun v => forallb (fun w => (v =? w) || negb (g_id (gv (sqi p)) v =? g_id (gv (sqi p)) w)) [1; 2; 3; 4]) [1; 2; 3; 4]) [0; 1] = true) by (vm_compute; reflexivity). rewrite forallb_forall in C. specialize (C p). assert (Ip : In p [0; 1]) by (destruct (on2 p Hp) as [->| ->]; cbn; auto). specialize (C Ip). rewrite forallb_forall in C. specialize (C v Hv). rewrite forallb_forall in C. specialize (C w Hw). rewrite E, Z.eqb_refl in C. cbn [negb] in C. rewrite orb_false_r in C. apply Z.eqb_eq; auto.
    + intros p v q w Hp _ _ Hv _ _. split; auto.
  - vm_compute. reflexivity.
Qed.

(** ** What does not hold *)
Lemma run_shows : forall {R} (d : R) k n (ps : Z -> prog R) (P : list R -> bool), 0 < n -> match sync k (map ps (ranks n)) with Some rs => P rs | None => false end = true ->
  exists rs, never_stuck_with n ps (fun p => nth (Z.to_nat p) rs d) /\ P rs = true.
Proof. intros R d k n ps P Hn H. destruct (sync k (map ps (ranks n))) as [rs|] eqn:E; [|discriminate]. exists rs. split; auto. apply (sync_runs d k); auto. Qed.

(** Some vertices have an ID and others not: an ID is given twice on the same rank. *)
Definition mixed (p : Z) : grank := set_gv (cube3 p) (named [0; 0; 0; 0; 1]).
Theorem C30_mixed_refuted : exists x a y, before 1 x a /\ before3 1 x a /\
  (forall p v, on 1 p -> bvert (x p) (a p) v -> real_point (g_xyz (x p) v)) /\ separated (fun k => exists p v, on 1 p /\ bvert (x p) (a p) v /\ k = g_xyz (x p) v) /\
  (forall v w, In v (g_vs (x 0)) -> In w (g_vs (x 0)) -> same_point (g_xyz (x 0) v) (g_xyz (x 0) w) -> v = w) /\
  (forall v w, In v (g_vs (x 0)) -> In w (g_vs (x 0)) -> g_id (gv (x 0)) v = g_id (gv (x 0)) w -> g_id (gv (x 0)) v <> 0 -> v = w) /\
  never_stuck_with 1 (fun p => MESH_AssignGlobalIDs (fun _ _ => 0) 1 p 3 0 (x p)) y /\
  exists v w, In v (g_vs (x 0)) /\ In w (g_vs (x 0)) /\ v <> w /\ g_pt (gv (y 0)) v <> PGHOST /\ g_pt (gv (y 0)) w <> PGHOST /\ g_id (gv (y 0)) v = g_id (gv (y 0)) w.
Proof.
  destruct (run_shows (mixed 0) 30 1 (fun p => MESH_AssignGlobalIDs (fun _ _ => 0) 1 p 3 0 (mixed p)) (fun rs => let y := nth 0 rs (mixed 0) in negb (g_pt (gv y) 1 =? PGHOST) && negb (g_pt (gv y) 5 =? PGHOST) && (g_id (gv y) 1 =? g_id (gv y) 5))) as (rs & Rn & Q). lia. vm_compute; reflexivity.
  exists mixed, (fun _ => A0). eexists. assert (O3 : forall p, on 1 p -> on 3 p) by (unfold on; intros; lia).
  split. { destruct cube3_before as [B1 B2 B3 B4 B5 B6 B7]. constructor; auto; try (intros p e _ _; discriminate); try reflexivity. intros p Hp. apply part_gv. auto. }
  split. { destruct cube3_before3 as [B1 B2 B3 B4]. constructor; auto; try (intros p e _ _; discriminate); try reflexivity. intros p f Hp Hf. apply (B3 0). unfold on; lia. auto. }
  destruct cube3_points as [P1 P2 P3 P4].
  split. { intros p v Hp Hv. apply (P1 p v); auto. }
  split. { intros k k' (p & v & Hp & Hv & ->) (q & w & Hq & Hw & ->). apply P2. exists p, v. auto. exists q, w. auto. }
  split. { intros v w Hv Hw. apply (P3 0); auto. unfold on; lia. apply bvert_all; auto. apply bvert_all; auto. }
  split. { intros v w Hv Hw. cbn in Hv, Hw. decompose [or] Hv; decompose [or] Hw; subst; try contradiction; cbn; intros; congruence. }
  split. exact Rn. cbv zeta in Q. cbv beta. change (Z.to_nat 0) with 0%nat. rewrite !andb_true_iff in Q. destruct Q as ((Q1 & Q2) & Q3). exists 1, 5. split. cbn; auto. split. cbn; auto 10. split. lia. split. lia. split; lia.
Qed.
Print Assumptions C30_mixed_refuted.

(** Points of three ranks in a chain: the second is within the tolerance of the first,
    the third within that of the second only.  The second is then labelled POVERLAP
    although it is a ghost, and neither of them gets an ID. *)
Definition chain (p : Z) : grank :=
  let c := set_gv (cube3 0) clean in
  mkG 0 T0 (g_vs c) (g_es c) (g_fs c) (g_rs c) (g_lid c)
    (fun v => if v =? 1 then [fl 1 + 2702 * p; fl 0; fl 0] else [fl 2; fl p; match v with 2 => fl 0 | 3 => fl 1 | 4 => fl 2 | _ => fl 3 end]) clean clean clean clean.
Theorem C30_tolerance_refuted : exists x a y, before 3 x a /\ before3 3 x a /\
  (forall p v, on 3 p -> bvert (x p) (a p) v -> real_point (g_xyz (x p) v)) /\
  (forall p v w, on 3 p -> bvert (x p) (a p) v -> bvert (x p) (a p) w -> same_point (g_xyz (x p) v) (g_xyz (x p) w) -> v = w) /\
  fresh 3 (fun p => g_vs (x p)) (fun p => gv (x p)) /\
  never_stuck_with 3 (fun p => MESH_AssignGlobalIDs (fun _ _ => 0) 3 p 3 0 (x p)) y /\
  exists u v w, twin_xyz x a 0 u 1 v /\ twin_xyz x a 1 v 2 w /\ g_id (gv (y 0)) u = 1 /\ g_id (gv (y 1)) v = 0 /\ g_pt (gv (y 1)) v = POVERLAP /\ g_mas (gv (y 1)) v = 0 /\ g_id (gv (y 2)) w = 0.
Proof.
  destruct (run_shows (chain 0) 30 3 (fun p => MESH_AssignGlobalIDs (fun _ _ => 0) 3 p 3 0 (chain p)) (fun rs => let y p := nth p rs (chain 0) in (g_id (gv (y 0%nat)) 1 =? 1) && (g_id (gv (y 1%nat)) 1 =? 0) && (g_pt (gv (y 1%nat)) 1 =? POVERLAP) && (g_mas (gv (y 1%nat)) 1 =? 0) && (g_id (gv (y 2%nat)) 1 =? 0))) as (rs & Rn & Q). lia. vm_compute; reflexivity.
  exists chain, (fun _ => A0). eexists.
  split. { destruct cube3_before as [B1 B2 B3 B4 B5 B6 B7]. constructor; auto; try (intros p e _ _; discriminate); try reflexivity. intros p Hp. apply partb_ok. exact T0_reach. destruct (on3 p Hp) as [->|[->| ->]]; vm_compute; reflexivity. }
  split. { destruct cube3_before3 as [B1 B2 B3 B4]. constructor; auto; try (intros p e _ _; discriminate); try reflexivity. }
  assert (IP : forall p v, on 3 p -> bvert (chain p) A0 v -> In p [0; 1; 2] /\ In v [1; 2; 3; 4; 5]) by (intros p v Hp (Hv & _); split; auto; destruct (on3 p Hp) as [->|[->| ->]]; cbn; auto).
  split. { intros p v Hp Hv. destruct (IP p v Hp Hv) as (I1 & I2). apply (real_ok (flat_map (fun p => map (g_xyz (chain p)) [1; 2; 3; 4; 5]) [0; 1; 2])). vm_compute; reflexivity. apply in_flat_map. exists p. split; auto. apply in_map; auto. }
  split. { intros p v w Hp Hv Hw S. destruct (IP p v Hp Hv) as (I1 & I2). destruct (IP p w Hp Hw) as (_ & I3). apply sameb_ok in S.
    assert (C : forallb (fun p => forallb (fun v => forallb (fun w => (v =? w) || negb (sameb (g_xyz (chain p) v) (g_xyz (chain p) w))) [1; 2; 3; 4; 5]) [1; 2; 3; 4; 5]) [0; 1; 2] = true) by (vm_compute; reflexivity).
    rewrite forallb_forall in C. specialize (C p I1). rewrite forallb_forall in C. specialize (C v I2). rewrite forallb_forall in C. specialize (C w I3). rewrite S in C. cbn [negb] in C. rewrite orb_false_r in C. apply Z.eqb_eq; auto. }
  split. intros p v _ _. reflexivity.
  split. exact Rn. cbv zeta in Q. exists 1, 1, 1. cbv beta. change (Z.to_nat 0) with 0%nat. change (Z.to_nat 1) with 1%nat. change (Z.to_nat 2) with 2%nat. split; [|split].
  - split. apply bvert_all; auto; cbn; auto. split. apply bvert_all; auto; cbn; auto. intros i Hi. destruct i as [|[|[|]]]; [vm_compute; discriminate|vm_compute; discriminate|vm_compute; discriminate|lia].
  - split. apply bvert_all; auto; cbn; auto. split. apply bvert_all; auto; cbn; auto. intros i Hi. destruct i as [|[|[|]]]; [vm_compute; discriminate|vm_compute; discriminate|vm_compute; discriminate|lia].
  - rewrite !andb_true_iff in Q. destruct Q as ((((Q1 & Q2) & Q3) & Q4) & Q5). split. lia. split. lia. split. lia. split; lia.
Qed.
Print Assumptions C30_tolerance_refuted.

(** The edges that rank 0 shares are not flagged as being on the partition boundary,
    although those of the other ranks are. *)
Theorem C30_edge_flag_refuted : exists x a y, before 3 x a /\ before3 3 x a /\ by_points 3 x a /\
  never_stuck_with 3 (fun p => MESH_AssignGlobalIDs (fun _ _ => 0) 3 p 3 0 (x p)) y /\
  exists e e', In e (g_es (x 0)) /\ In e' (g_es (x 1)) /\ copy_edge (twin_xyz x a) a 0 e 1 e' /\ g_id (ge (y 0)) e = g_id (ge (y 1)) e' /\ g_pt (ge (y 0)) e = POVERLAP /\ g_bd (ge (y 1)) e' = true /\ g_bd (ge (y 0)) e = false.
Proof.
  destruct (run_shows (cube3 0) 30 3 (fun p => MESH_AssignGlobalIDs (fun _ _ => 0) 3 p 3 0 (cube3 p)) (fun rs => let y p := nth p rs (cube3 0) in (g_id (ge (y 0%nat)) 9 =? g_id (ge (y 1%nat)) 10) && (g_pt (ge (y 0%nat)) 9 =? POVERLAP) && g_bd (ge (y 1%nat)) 10 && negb (g_bd (ge (y 0%nat)) 9))) as (rs & Rn & Q). lia. vm_compute; reflexivity.
  exists cube3, (fun _ => A0). eexists. split. exact cube3_before. split. exact cube3_before3. split. exact cube3_points. split. exact Rn. cbv zeta in Q. exists 9, 10. cbv beta. change (Z.to_nat 1) with 1%nat. change (Z.to_nat 0) with 0%nat. split. cbn; auto 10. split. cbn; auto 10. split.
  - unfold copy_edge. change (ends A0 9) with (2, 3). change (ends A0 10) with (2, 4). cbv iota. right. split; (right; split; [lia|]); (split; [apply bvert_all; auto; cbn; auto 10|split; [apply bvert_all; auto; cbn; auto 10|]]); intros i Hi; (destruct i as [|[|[|]]]; [vm_compute; discriminate|vm_compute; discriminate|vm_compute; discriminate|lia]).
  - rewrite !andb_true_iff in Q. destruct Q as (((Q1 & Q2) & Q3) & Q4). split. lia. split. lia. split. auto. destruct (g_bd _ 9); [discriminate|reflexivity].
Qed.
Print Assumptions C30_edge_flag_refuted.

(** A vertex without edges: a list is read through a NULL pointer. *)
Theorem C30_isolated_vertex_refuted : exists t a v, reach t a /\ a_v a v = Some true /\ vertex_on_boundary2D t v = Undef /\ vertex_on_boundary3D t v = Undef.
Proof.
  exists (TopoProps.done (trun empty_topo [TNewV])), (arun amesh0 [TNewV]), 1. split.
  - exists [TNewV]. split. apply tallowedb_ok with (t := empty_topo). exact inv0. vm_compute; reflexivity. split; vm_compute; reflexivity.
  - split. reflexivity. split; vm_compute; reflexivity.
Qed.
Print Assumptions C30_isolated_vertex_refuted.

(** ** The coordinate order on points that are equal or well apart (C10) *)
Theorem C10_coor_order_separated : forall K : list Z -> Prop, (forall k, K k -> real_point k) -> separated K ->
  preorder3 K (fun a b => compareCoorDouble (xyz_of a) (xyz_of b)) same_point.
Proof. exact coor_preorder. Qed.
Print Assumptions C10_coor_order_separated.
Example C10_coor_order_separated_ex : (forall k, In k sq_pts -> real_point k) /\ separated (fun k => In k sq_pts) /\ length sq_pts = 8%nat /\
  map (fun k => compareCoorDouble (xyz_of (at3 (tpts 0) 1)) (xyz_of k)) (map (at3 (tpts 0)) [1; 2; 3; 4]) = [0; -1; -1; -1].
Proof. split. intros k. apply real_ok. vm_compute; reflexivity. split. { apply (sep_ok _ sq_pts). intros k H; exact H. vm_compute; reflexivity. } split; vm_compute; reflexivity. Qed.
