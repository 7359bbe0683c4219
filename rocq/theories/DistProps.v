(** C51: a mesh is distributed (MSTK_Mesh_Distribute.c, MESH_Partition_and_Send.c, MESH_BuildGhostList.c). *)
From Coq Require Import ZArith Bool String List Lia Arith ZifyBool ZifyNat Sorting.Sorted.
From Verif Require Import Base BaseProofs ListSpec SortModel AttModel AttProps TopoModel TopoSpec TopoProps TopoProps2 CheckProps ParModel ParProps CommModel CommProofs CommProofs2 ExchModel ExchProofs ExchProofs4 ExchProofs5 ExchProofs7 ExchProps GidModel TopoProofs TopoProofs2 ModProofs.
From Verif Require Import FileModel FileSpec SendModel SendSpec PartModel PartSpec PartProofs PartProps PartProps2 GhostModel GhostSpec GhostProps CloneModel DistModel DistSpec DistProofs DistProofs2 DistProofs3.
Import ListNotations.
Open Scope Z_scope.
Notation on := CommModel.on.

(** Every rank gets its part and [ring] layers of ghosts around it.  Two entities of the same kind
    have the same global ID if and only if they are copies of the same entity. *)
Theorem C51_distribute : forall s a part num ring, distributable s a part num ->
  exists s' ms (O : Z -> ptr -> ptr), distribute s num ring part = Ok (s', ms) /\ Z.of_nat (length ms) = num /\
    (forall p, on num p -> (exists a', is_halo s a part p (Z.to_nat ring) s' (rank_mesh ms p) a' (O p)) /\ flagged s a part p (rank_mesh ms p) (O p) /\ typed s a part p (Z.to_nat ring) (rank_mesh ms p) (O p)) /\
    (forall d p q j q', on num p -> on num j -> In q (skind (rank_mesh ms p) d) -> In q' (skind (rank_mesh ms j) d) -> (pi_gid (sm_p (rank_mesh ms p) q) = pi_gid (sm_p (rank_mesh ms j) q') <-> O p q = O j q')).
Proof.
  intros s a part num ring D. destruct (distribute_ok s a part num ring D) as (s' & ms & O & E & L & _ & ID & HM). exists s', ms, (Oz O). split; auto. split; auto.
  assert (HM' : forall k m, nth_error ms k = Some m -> (exists a', is_halo s a part (Z.of_nat k) (Z.to_nat ring) s' m a' (O k)) /\ flagged s a part (Z.of_nat k) m (O k) /\ typed s a part (Z.of_nat k) (Z.to_nat ring) m (O k)) by (intros k m X; apply HM in X; tauto).
  split; [exact (at_rank s a part num ring s' ms O L HM')|]. intros d p q j q' Hp Hj. apply (same_gid s a part num ring s' ms O L ID HM' p j d q q' Hp Hj).
Qed.
Print Assumptions C51_distribute.

Lemma given : forall s a part num ring s' ms, distributable s a part num -> distribute s num ring part = Ok (s', ms) ->
  exists O, Z.of_nat (length ms) = num /\ ids_ok s s' /\ (forall k m, nth_error ms k = Some m -> (exists a', is_halo s a part (Z.of_nat k) (Z.to_nat ring) s' m a' (O k)) /\ flagged s a part (Z.of_nat k) m (O k) /\ typed s a part (Z.of_nat k) (Z.to_nat ring) m (O k)) /\ (forall k m, nth_error ms k = Some m -> has_atts s k m).
Proof.
  intros s a part num ring s' ms D E. destruct (distribute_ok s a part num ring D) as (s1 & ms1 & O & E1 & L & _ & ID & HM). rewrite E in E1. inversion E1. subst s1 ms1. exists O. split; auto. split; auto. split; intros k m X; apply HM in X; tauto.
Qed.

(** The lists, in increasing order of the global IDs: ghosts are the entities with another master,
    overlap those with this master that other ranks have too. *)
Theorem C51_lists : forall s a part num ring s' ms, distributable s a part num -> distribute s num ring part = Ok (s', ms) ->
  forall p, on num p -> exists gh ov, MESH_Build_GhostLists (rank_mesh ms p) (celldim s) = Ok (gh, ov) /\ forall d,
    (forall q, In q (gh d) <-> In q (skind (rank_mesh ms p) d) /\ master_of ms p q <> p) /\ StronglySorted Z.lt (map (fun q => pi_gid (sm_p (rank_mesh ms p) q)) (gh d)) /\
    (forall q, In q (ov d) <-> In q (skind (rank_mesh ms p) d) /\ master_of ms p q = p /\ exists j q', on num j /\ j <> p /\ twins ms d p q j q') /\ StronglySorted Z.lt (map (fun q => pi_gid (sm_p (rank_mesh ms p) q)) (ov d)).
Proof.
  intros s a part num ring s' ms D E p Hp. destruct (given _ _ _ _ _ _ _ D E) as (O & L & ID & HM & _). destruct (begin_ok s a part num ring s' ms O D L ID HM (fun _ => []) p Hp) as (x & Ex & S). unfold begin_rank in Ex. change (M ms p) with (rank_mesh ms p) in *. destruct (MESH_Build_GhostLists (rank_mesh ms p) (celldim s)) as [[gh ov]| | |]; try discriminate Ex. cbn [bind] in Ex. inversion Ex. subst x. exists gh, ov. split; auto. intro d.
  pose proof (st_gh _ _ _ _ _ S d) as S1. pose proof (st_gs _ _ _ _ _ S d) as S2. pose proof (st_ov _ _ _ _ _ S d) as S3. pose proof (st_os _ _ _ _ _ S d) as S4. cbn [x_gh x_ov x_gid] in *. split; [exact S1|]. split; [exact S2|]. split; [|exact S4]. intro q. rewrite S3. unfold twins. split; intros (X1 & X2 & j & q' & X3 & X4 & X5); (split; [auto|split; [auto|exists j, q']]).
  - split; auto. split; auto. split; auto. split; [tauto|]. symmetry. tauto.
  - split; auto. split; auto. split; [tauto|]. symmetry. tauto.
Qed.
Print Assumptions C51_lists.

(** MESH_Update_ParallelAdj always ends; then a rank has ghosts from the masters of its entities and
    only from these, and they know it. *)
Theorem C51_adjacency : forall s a part num ring s' ms val, distributable s a part num -> distribute s num ring part = Ok (s', ms) ->
  exists res, never_stuck_with num (fun p => finish_rank num p (celldim s) (val p) (rank_mesh ms p)) res /\
    forall p j d, on num p -> on num j -> 0 <= d <= 3 -> exists b : bool, MESH_Has_Ghosts_From_Prtn (x_p (res p)) j d = Ok (Z.b2z b) /\ MESH_Has_Overlaps_On_Prtn (x_p (res j)) p d = Ok (Z.b2z b) /\
      (b = true <-> j <> p /\ exists q, In q (skind (rank_mesh ms p) d) /\ master_of ms p q = j).
Proof.
  intros s a part num ring s' ms val D E. destruct (given _ _ _ _ _ _ _ D E) as (O & L & ID & HM & _). destruct (finish_ok s a part num ring s' ms O D L ID HM val) as (ys & PR & _ & _ & FL). exists ys. split; [|exact FL]. apply (protocol_runs _ num 0 2). pose proof (di_num _ _ _ _ D). lia. apply (PR 0).
Qed.
Print Assumptions C51_adjacency.

(** An attribute is updated: every copy of an entity gets the value of the master, if that is not
    one of those that are lost (C31). *)
Theorem C51_update : forall s a part num ring s' ms val at_, distributable s a part num -> distribute s num ring part = Ok (s', ms) ->
  let d := at_dim at_ in attr_ok at_ -> (forall p q, on num p -> In q (skind (rank_mesh ms p) d) -> master_of ms p q = p -> value_ok at_ (val p q)) ->
  exists res, never_stuck_with num (fun p => x <~ finish_rank num p (celldim s) (val p) (rank_mesh ms p) ;; MESH_Update1Attribute num p at_ x) res /\
    forall p q q', on num p -> twins ms d p q (master_of ms p q) q' -> x_val (res p) q = if lost_value at_ (val (master_of ms p q) q') then val p q else val (master_of ms p q) q'.
Proof.
  intros s a part num ring s' ms val at_ D E d A V. destruct (given _ _ _ _ _ _ _ D E) as (O & L & ID & HM & _). destruct (finish_ok s a part num ring s' ms O D L ID HM val) as (ys & PR & AH & KS & _). pose proof (di_num _ _ _ _ D) as HN. assert (EN : Z.of_nat (Z.to_nat num) = num) by lia.
  pose proof (start_shared s a part num ring s' ms O D L ID HM val ys d KS) as BS.
  destruct (update1_ok (Z.to_nat num) at_ ys ltac:(lia) AH A) as (res & P & R & _); rewrite ?EN in *.
  { apply BS. } { intros p o Hp Ho. rewrite (ks_val _ _ _ _ _ (KS p Hp)). apply (ks_ov _ _ _ _ _ (KS p Hp)) in Ho. apply V; auto; apply Ho. }
  exists res. split. { apply (protocol_runs _ num 0 6). lia. eapply (protocol_bind _ _ num 0 2 6 _ ys); [lia|apply (PR 0)|]. apply (P 2). }
  intros p q q' Hp (Hq & Hq' & G). destruct (R p Hp) as (_ & R1 & R2). unfold master_of in *. fold d in R1, R2. destruct (rank_master s a part num ring s' ms O D L HM p d q Hp Hq) as [Hm _]. change (M ms p) with (rank_mesh ms p) in Hm. set (j := pi_master (sm_p (rank_mesh ms p) q)) in *.
  destruct (Z.eq_dec j p) as [Ej|Nj].
  - assert (q = q') by (apply (rank_inj s a part num ring s' ms O L ID HM p d); auto; rewrite Ej in *; auto). subst q'. rewrite R2, (ks_val _ _ _ _ _ (KS p Hp)), Ej; [destruct (lost_value at_ (val p q)); auto|]. intro X. apply (ks_gh _ _ _ _ _ (KS p Hp)) in X. destruct X as [_ X]. apply X. exact Ej.
  - assert (X : In q (x_gh (ys p) d)) by (apply (ks_gh _ _ _ _ _ (KS p Hp)); split; auto). assert (EM : x_mas (ys p) q = j) by (rewrite (ks_mas _ _ _ _ _ (KS p Hp)); auto).
    rewrite (R1 q q' X).
    + rewrite EM, (ks_val _ _ _ _ _ (KS p Hp)), (ks_val _ _ _ _ _ (KS j Hm)). reflexivity.
    + unfold owner_of. rewrite EM, (ks_gid _ _ _ _ _ (KS p Hp)), (ks_gid _ _ _ _ _ (KS j Hm)). split; [|symmetry; exact G]. apply (ks_ov _ _ _ _ _ (KS j Hm)). split; auto. split; [|exists p, q; auto].
      destruct (rank_owner s a part num ring s' ms O D L ID HM p d q Hp Hq) as (q2 & H1 & H2 & H3). change (M ms) with (rank_mesh ms) in *. fold j in H1, H2, H3. assert (q2 = q') by (apply (rank_inj s a part num ring s' ms O L ID HM j d); auto; exact (eq_trans H2 G)). subst q2. exact H3.
Qed.
Print Assumptions C51_update.

(** The coordinates of the vertices are updated. *)
Theorem C51_coordinates : forall s a part num ring s' ms val, distributable s a part num -> distribute s num ring part = Ok (s', ms) ->
  (forall p q, on num p -> In q (skind (rank_mesh ms p) 0) -> master_of ms p q = p -> length (val p q) = 3%nat) ->
  exists res, never_stuck_with num (fun p => x <~ finish_rank num p (celldim s) (val p) (rank_mesh ms p) ;; MESH_UpdateVertexCoords num p x) res /\
    forall p q q', on num p -> twins ms 0 p q (master_of ms p q) q' -> x_val (res p) q = val (master_of ms p q) q'.
Proof.
  intros s a part num ring s' ms val D E V. destruct (given _ _ _ _ _ _ _ D E) as (O & L & ID & HM & _). destruct (finish_ok s a part num ring s' ms O D L ID HM val) as (ys & PR & AH & KS & _). pose proof (di_num _ _ _ _ D) as HN. assert (EN : Z.of_nat (Z.to_nat num) = num) by lia.
  pose proof (start_shared s a part num ring s' ms O D L ID HM val ys 0 KS) as BS.
  destruct (coords_ok (Z.to_nat num) ys ltac:(lia) AH) as (res & P & R & _); rewrite ?EN in *.
  { apply BS. } { intros p o Hp Ho. rewrite (ks_val _ _ _ _ _ (KS p Hp)). apply (ks_ov _ _ _ _ _ (KS p Hp)) in Ho. apply V; auto; apply Ho. }
  exists res. split. { apply (protocol_runs _ num 0 7). lia. eapply (protocol_bind _ _ num 0 2 7 _ ys); [lia|apply (PR 0)|]. apply (P 2). }
  intros p q q' Hp (Hq & Hq' & G). destruct (R p Hp) as (_ & R1 & R2). unfold master_of in *. destruct (rank_master s a part num ring s' ms O D L HM p 0 q Hp Hq) as [Hm _]. change (M ms p) with (rank_mesh ms p) in Hm. set (j := pi_master (sm_p (rank_mesh ms p) q)) in *.
  destruct (Z.eq_dec j p) as [Ej|Nj].
  - assert (q = q') by (apply (rank_inj s a part num ring s' ms O L ID HM p 0); auto; rewrite Ej in *; auto). subst q'. rewrite R2, (ks_val _ _ _ _ _ (KS p Hp)), Ej; auto. intro X. apply (ks_gh _ _ _ _ _ (KS p Hp)) in X. destruct X as [_ X]. apply X. exact Ej.
  - assert (X : In q (x_gh (ys p) 0)) by (apply (ks_gh _ _ _ _ _ (KS p Hp)); split; auto). assert (EM : x_mas (ys p) q = j) by (rewrite (ks_mas _ _ _ _ _ (KS p Hp)); auto).
    rewrite (R1 q q' X).
    + rewrite EM, (ks_val _ _ _ _ _ (KS j Hm)). reflexivity.
    + unfold owner_of. rewrite EM, (ks_gid _ _ _ _ _ (KS p Hp)), (ks_gid _ _ _ _ _ (KS j Hm)). split; [|symmetry; exact G]. apply (ks_ov _ _ _ _ _ (KS j Hm)). split; auto. split; [|exists p, q; auto].
      destruct (rank_owner s a part num ring s' ms O D L ID HM p 0 q Hp Hq) as (q2 & H1 & H2 & H3). change (M ms) with (rank_mesh ms) in *. fold j in H1, H2, H3. assert (q2 = q') by (apply (rank_inj s a part num ring s' ms O L ID HM j 0); auto; exact (eq_trans H2 G)). subst q2. exact H3.
Qed.
Print Assumptions C51_coordinates.
(** The copy of the master exists. *)
Theorem C51_master : forall s a part num ring s' ms d p q, distributable s a part num -> distribute s num ring part = Ok (s', ms) -> on num p -> In q (skind (rank_mesh ms p) d) ->
  on num (master_of ms p q) /\ exists q', twins ms d p q (master_of ms p q) q' /\ master_of ms (master_of ms p q) q' = master_of ms p q.
Proof.
  intros s a part num ring s' ms d p q D E Hp Hq. destruct (given _ _ _ _ _ _ _ D E) as (O & L & ID & HM & _). destruct (rank_master s a part num ring s' ms O D L HM p d q Hp Hq) as [Hm _]. split; [exact Hm|].
  destruct (rank_owner s a part num ring s' ms O D L ID HM p d q Hp Hq) as (q2 & H1 & H2 & H3). exists q2. split; [|exact H3]. split; [exact Hq|]. split; [exact H1|symmetry; exact H2].
Qed.
Print Assumptions C51_master.
(** With with_attr = 0 the ranks have no sets and no attributes, except rank 0: there are two
    left over and those of the mesh, without values. *)
Theorem C51_attributes : forall s a part num ring s' ms, distributable s a part num -> distribute s num ring part = Ok (s', ms) -> forall p, on num p ->
  sm_sets (rank_mesh ms p) = [] /\ (forall x q, In x (satts (rank_mesh ms p)) -> at_val x q = None) /\
  map at_name (satts (rank_mesh ms p)) = if p =? 0 then filter (fun t => negb (text_eqb t (str "copyatt"))) (str "Local2Global" :: map at_name (satts s) ++ [str "Global2Local"]) else [].
Proof.
  intros s a part num ring s' ms D E p Hp. destruct (given _ _ _ _ _ _ _ D E) as (O & L & _ & _ & HA). unfold CommModel.on in Hp. assert (EP : nth_error ms (Z.to_nat p) = Some (rank_mesh ms p)) by (apply nth_error_nth'; lia). apply HA in EP. destruct EP as [SE F]. split; auto.
  assert (X : forall l l', Forall2 (fun x y => at_name y = at_name x /\ at_type y = at_type x /\ at_ncomp y = at_ncomp x /\ at_ent y = at_ent x /\ forall q, at_val y q = None) l l' -> (forall x q, In x l' -> at_val x q = None) /\ map at_name l' = map at_name l).
  { intros l l' H. induction H as [|x y l l' A _ [IH1 IH2]]; [split; auto; intros x q []|]. split; [intros z q [<-|Hz]; auto; apply A|]. cbn [map]. f_equal; auto. apply A. }
  apply X in F. destruct F as [F1 F2]. split; auto. rewrite F2. replace (Z.to_nat p =? 0)%nat with (p =? 0) by lia. destruct (p =? 0); auto.
  assert (Y : forall l : list attr, map at_name (filter (fun a => negb (text_eqb (at_name a) (str "copyatt"))) l) = filter (fun t => negb (text_eqb t (str "copyatt"))) (map at_name l)) by (induction l as [|x l IH]; cbn [filter map]; auto; destruct (negb (text_eqb (at_name x) (str "copyatt"))); cbn [map]; rewrite IH; auto).
  rewrite Y. unfold all_atts. cbn [map]. rewrite map_map, map_app. reflexivity.
Qed.
Print Assumptions C51_attributes.

(** ** Examples *)
Definition emptyb (a : amesh) : bool := forallb (fun p => match a_f a p with Some (true, Some []) => false | _ => true end && match a_r a p with Some (true, Some []) => false | _ => true end) (zrange 1 (a_next a)).
Lemma distributable_ok : forall s a part num, partable s a -> unpartedb s = true -> danglingb s a = true -> emptyb a = true -> length (cells s) = length part -> forallb (fun i => (0 <=? i) && (i <? num)) part = true -> 2 <= num <= 2 ^ 28 ->
  forallb (fun k => inb k part) (zrange 0 num) = true -> ZL (skind s 0 ++ skind s 1 ++ skind s 2 ++ skind s 3) < 1000000 -> (forall p, pi_gid (sm_p s p) = 0) ->
  Forall (fun x => short (at_name x) /\ match at_type x with TVECTOR | TTENSOR => at_ncomp x <> 1 | _ => at_ncomp x = 1 end) (satts s) -> distributable s a part num.
Proof.
  intros s a part num P U DA EM LE RA NU EA SI GI AT. pose proof (i_w _ _ (reach_inv _ _ (pa_reach _ _ P))) as W. unfold emptyb in EM. rewrite forallb_forall in EM, RA, EA. constructor; auto.
  - apply unpartedb_ok; auto.
  - intros i Hi. apply RA in Hi. lia.
  - intros k Hk. apply inb_ok, EA, zrange_In. lia.
  - apply danglingb_ok; auto.
  - intros f H. assert (Hp : 1 <= f < a_next a) by (apply (w_f _ W); congruence). specialize (EM f ltac:(apply zrange_In; lia)). rewrite H in EM. discriminate.
  - intros f H. assert (Hp : 1 <= f < a_next a) by (apply (w_r _ W); congruence). specialize (EM f ltac:(apply zrange_In; lia)). rewrite H in EM. rewrite andb_false_r in EM. discriminate.
  - unfold ZL in *. rewrite !app_length in SI. lia.
Qed.
(** Seven triangles in a row (GhostProps.v) with an attribute. *)
Definition row_a : smesh :=
  mkSM (mkFM (tget row) (fun p => (p mod 4, p)) xyz (fun p => p) (zrange 1 10) (zrange 10 25) (zrange 25 32) [] [mkAttr (str "temp") TDOUBLE 1 MFACE (fun _ => None)]) clean [].
Definition parts2 : list Z := [0; 0; 0; 1; 1; 1; 1].
Lemma row_dist : distributable row_a (arun amesh0 row) parts2 2.
Proof.
  apply distributable_ok; try (vm_compute; reflexivity); try lia.
  - apply partableb_ok; [apply (reach_tget row); vm_compute; reflexivity|vm_compute; reflexivity].
  - constructor; [|constructor]. split; [unfold short; vm_compute; discriminate|reflexivity].
Qed.
(** Two tetrahedra. *)
Lemma tets_dist : distributable (tets_mesh clean) (arun amesh0 tets) [1; 0] 2.
Proof. apply distributable_ok; try (vm_compute; reflexivity); try lia; [apply tets_ok|constructor]. Qed.

Definition gids (m : smesh) (l : list ptr) : list Z := map (fun q => pi_gid (sm_p m q)) l.
(** The global IDs of the faces on each rank, of the lists of ghosts and of overlap. *)
Definition shown (m : smesh) : list Z * list Z * list Z :=
  match MESH_Build_GhostLists m 2 with Ok (gh, ov) => (gids m (skind m 2), gids m (gh 2), gids m (ov 2)) | _ => ([], [], []) end.
Example C51_ex : distributable row_a (arun amesh0 row) parts2 2 /\ match distribute row_a 2 1 parts2 with
  | Ok (_, [m0; m1]) => shown m0 = ([1; 2; 3; 4; 5], [4; 5], [2; 3]) /\ shown m1 = ([4; 5; 6; 7; 2; 3], [2; 3], [4; 5]) /\
      match MESH_Build_GhostLists m1 2 with Ok (gh, ov) => gids m1 (gh 0) = [2; 3; 4; 5] /\ gids m1 (ov 0) = [6; 7] | _ => False end /\
      map at_name (satts m0) = [str "Local2Global"; str "temp"; str "Global2Local"] /\ satts m1 = []
  | _ => False end.
Proof. split; [exact row_dist|]. vm_compute. repeat split; reflexivity. Qed.
Example C51_ex_vol : distributable (tets_mesh clean) (arun amesh0 tets) [1; 0] 2 /\ match distribute (tets_mesh clean) 2 1 [1; 0] with
  | Ok (_, [m0; m1]) => gids m0 (skind m0 3) = [1; 2] /\ gids m1 (skind m1 3) = [2; 1] /\ match MESH_Build_GhostLists m1 3 with Ok (gh, ov) => gids m1 (gh 3) = [1] /\ gids m1 (ov 3) = [2] /\ ZL (gh 2) = 4 /\ ZL (ov 2) = 3 | _ => False end
  | _ => False end.
Proof. split; [exact tets_dist|]. vm_compute. repeat split; reflexivity. Qed.

(** The values 100 p + q of the faces q on rank p are updated: the copies of face 4 and 5 of the
    row on rank 0, the last two there, get the values of the first two of rank 1. *)
Example C51_update_ex : match distribute row_a 2 1 parts2 with
  | Ok (_, ms) => exists res, never_stuck_with 2 (fun p => x <~ finish_rank 2 p 2 (fun q => [100 * p + q]) (rank_mesh ms p) ;; MESH_Update1Attribute 2 p (mkAt TINT 1 2) x) res /\
      forall q q', nth_error (skind (rank_mesh ms 0) 2) 3 = Some q -> nth_error (skind (rank_mesh ms 1) 2) 0 = Some q' -> x_val (res 0) q = [100 + q']
  | _ => False end.
Proof.
  destruct (distribute row_a 2 1 parts2) as [[s' ms]| | |] eqn:E; try (destruct C51_ex as [_ X]; rewrite E in X; exact X).
  destruct (C51_update row_a _ parts2 2 1 s' ms (fun p q => [100 * p + q]) (mkAt TINT 1 2) row_dist E) as (res & P & R).
  - split; cbn; lia.
  - intros p q _ _ _. cbn. auto.
  - exists res. split. exact P. intros q q' Hq Hq'.
    assert (B : match distribute row_a 2 1 parts2 with Ok (_, ms) => match nth_error (skind (rank_mesh ms 0) 2) 3, nth_error (skind (rank_mesh ms 1) 2) 0 with Some q, Some q' => (0 <? q') && (master_of ms 0 q =? 1) && (pi_gid (sm_p (rank_mesh ms 0) q) =? pi_gid (sm_p (rank_mesh ms 1) q')) | _, _ => false end | _ => false end = true) by (vm_compute; reflexivity).
    rewrite E, Hq, Hq' in B. apply andb_prop in B. destruct B as [B1 B2]. apply andb_prop in B1. destruct B1 as [B0 B1]. apply Z.ltb_lt in B0. apply Z.eqb_eq in B1, B2. specialize (R 0 q q' ltac:(unfold CommModel.on; lia)). rewrite B1 in R. assert (LV : lost_value (mkAt TINT 1 2) [100 * 1 + q'] = false) by (unfold lost_value; cbn; lia). rewrite LV in R. apply R. split; [eapply nth_error_In; eauto|]. split; [eapply nth_error_In; eauto|exact B2].
Qed.

(** The ranks do not have the same attributes. *)
Theorem C51_attributes_refuted : exists s a part num ring s' ms, distributable s a part num /\ distribute s num ring part = Ok (s', ms) /\ satts s = [] /\
  exists p j, on num p /\ on num j /\ map at_name (satts (rank_mesh ms p)) <> map at_name (satts (rank_mesh ms j)).
Proof.
  assert (D : distributable row_mesh (arun amesh0 row) parts2 2) by (apply distributable_ok; try (vm_compute; reflexivity); try lia; [exact row_ok|constructor]).
  destruct (C51_distribute _ _ _ _ 1 D) as (s' & ms & O & E & _). exists row_mesh, (arun amesh0 row), parts2, 2, 1, s', ms. split; auto. split; auto. split; auto. exists 0, 1. split; [unfold CommModel.on; lia|]. split; [unfold CommModel.on; lia|].
  rewrite (proj2 (proj2 (C51_attributes _ _ _ _ _ _ _ D E 0 ltac:(unfold CommModel.on; lia)))), (proj2 (proj2 (C51_attributes _ _ _ _ _ _ _ D E 1 ltac:(unfold CommModel.on; lia)))). vm_compute. discriminate.
Qed.
Print Assumptions C51_attributes_refuted.
