(** C35: the numbering of a connected graph. *)
From Coq Require Import ZArith List Lia Bool Arith ZifyBool ZifyNat Permutation Sorting.Sorted.
From Verif Require Import Base BaseProofs ListSpec HashProofs HashProofs2 SortModel SortProofs SortProps AttModel AttProps TopoModel TopoProofs TopoProofs2 ParModel ParProps GraphModel GraphProofs GraphProofs2 GraphProofs3 GraphProofs4 GraphProofs5 GraphProps.
Import ListNotations.
Open Scope Z_scope.

(** ** Specification *)

(** An undirected connected graph without repeated edges. *)
Record ugraph (nbs : list (list Z)) : Prop := mkUG {
  u_wf : wf_nbs nbs;
  u_sym : forall u v, 0 <= u < Zlen nbs -> In v (nbrs nbs u) -> In u (nbrs nbs v);
  u_nodup : Forall (fun l => NoDup l) nbs;
  u_conn : forall u, 0 <= u < Zlen nbs -> connected nbs u }.
(** [k] is the greatest distance from [u]. *)
Definition ecc (nbs : list (list Z)) (u : Z) (k : nat) : Prop := (forall v j, 0 <= v < Zlen nbs -> dist nbs u v j -> (j <= k)%nat) /\ exists v, 0 <= v < Zlen nbs /\ dist nbs u v k.
(** Walks that never go to a lower level. *)
Inductive rises (nbs : list (list Z)) (lv : Z -> Z) (b : Z) : Z -> Prop :=
| rises_0 : rises nbs lv b b
| rises_S : forall u w, rises nbs lv b u -> In w (nbrs nbs u) -> lv w = lv u \/ lv w = lv u + 1 -> rises nbs lv b w.

Lemma index_of_nth : forall l x i, index_of x l = Some i -> (i < length l)%nat /\ nth i l 0 = x.
Proof. intros l x i H. destruct (index_of_some _ _ _ H) as (a & c & -> & <- & _). rewrite app_length. cbn [length]. split. lia. apply nth_middle. Qed.
Lemma nth_index_of : forall l i, NoDup l -> (i < length l)%nat -> index_of (nth i l 0) l = Some i.
Proof. intros l i N Hi. destruct (nth_split l 0 Hi) as (a & c & E & L). set (x := nth i l 0) in *. rewrite E in *. rewrite index_of_app. congruence. apply NoDup_remove_2 in N. intros HH. apply N, in_app_iff. auto. Qed.
Lemma nodup_map_inj : forall (f : Z -> Z) l, (forall x y, In x l -> In y l -> f x = f y -> x = y) -> NoDup l -> NoDup (map f l).
Proof. intros f. induction l as [|x l IH]; intros H N; cbn. constructor. inversion N; subst. constructor. intros HH. apply in_map_iff in HH. destruct HH as (y & E & Hy). assert (y = x) by (apply H; [right; auto|left; auto|auto]). congruence. apply IH; auto. intros; apply H; auto; right; auto. Qed.
Lemma ugraph_nd : forall nbs, ugraph nbs -> forall u, 0 <= u < Zlen nbs -> NoDup (nbrs nbs u).
Proof. intros nbs U u Hu. pose proof (u_nodup _ U) as F. rewrite Forall_forall in F. apply F. apply nth_In. unfold Zlen in Hu. lia. Qed.
Lemma ugraph_conn : forall nbs, ugraph nbs -> forall u v, 0 <= u < Zlen nbs -> 0 <= v < Zlen nbs -> exists k, walk_to (nbrs nbs) u k v.
Proof. intros nbs U u v Hu Hv. apply (u_conn _ U u Hu v Hv). Qed.
Lemma levels_dist : forall nbs b o lv d w, levels (Zlen nbs) (nbrs nbs) b o lv d w -> forall v, 0 <= v < Zlen nbs -> exists k, dist nbs b v k /\ lv v = Z.of_nat k + 1.
Proof. intros nbs b o lv d w L v Hv. destruct (l_walk _ _ _ _ _ _ _ L v Hv) as (k & W & E). exists k. split; auto. split; auto. intros j Wj. apply (l_least _ _ _ _ _ _ _ L) in Wj. lia. Qed.
Lemma dist_unique : forall nbs u v j k, dist nbs u v j -> dist nbs u v k -> j = k.
Proof. intros nbs u v j k (A & B) (C & D). specialize (B _ C). specialize (D _ A). lia. Qed.
Lemma levels_ecc : forall nbs b o lv d w, levels (Zlen nbs) (nbrs nbs) b o lv d w -> 1 <= d /\ ecc nbs b (Z.to_nat (d - 1)).
Proof.
  intros nbs b o lv d w L. destruct (l_depth _ _ _ _ _ _ _ L) as (D1 & v & Rv & Ev & _). pose proof (levels_pos _ _ _ _ _ _ _ L v Rv). split. lia. split.
  - intros x j Rx Dj. destruct (levels_dist _ _ _ _ _ _ L x Rx) as (k & Dk & Ek). rewrite (dist_unique _ _ _ _ _ Dj Dk). specialize (D1 x Rx). lia.
  - exists v. split; auto. destruct (levels_dist _ _ _ _ _ _ L v Rv) as (k & Dk & Ek). replace (Z.to_nat (d - 1)) with k by lia. auto.
Qed.
Lemma rises_climb : forall nbs lv b v, rises nbs lv b v <-> climb (nbrs nbs) lv b v.
Proof. intros nbs lv b v. split; intros H; induction H; try constructor; econstructor; eauto. Qed.

(** The two ends found are as far from each other as any node is from either. *)
Theorem C35_extremal_nodes : forall nbs start, ugraph nbs -> Zlen nbs < 1000000000 -> 0 <= start < Zlen nbs ->
  exists b e k, Graph_Find_ExtremalNodes (Zlen nbs) (concat nbs) (degrees nbs) (starts_at nbs) start None = Ok (b, Some e) /\
    0 <= b < Zlen nbs /\ 0 <= e < Zlen nbs /\ dist nbs b e k /\ ecc nbs b k /\ ecc nbs e k.
Proof.
  intros nbs start U Hn Hs. destruct (find_ends_ok _ _ _ _ _ (wf_graph nbs (u_wf _ U)) ltac:(lia) (u_sym _ U) (ugraph_conn _ U) start None Hs) as (b & e & E & Rb & Re & o1 & l1 & w1 & o2 & l2 & w2 & d & V1 & V2 & Ed).
  destruct (levels_ecc _ _ _ _ _ _ V1) as (D1 & EC1). destruct (levels_ecc _ _ _ _ _ _ V2) as (_ & EC2). exists b, e, (Z.to_nat (d - 1)). split; auto. split; auto. split; auto. split; auto. destruct (levels_dist _ _ _ _ _ _ V1 e Re) as (k & Dk & Ek). replace (Z.to_nat (d - 1)) with k by lia. auto.
Qed.
Print Assumptions C35_extremal_nodes.

(** Full statement: the numbers are a permutation of 0..n-1 for every connected
    graph.  It fails (see below).  Proved in full when every node lies on a
    shortest walk between the two ends; the width returned is then that of the
    widest level. *)
Theorem C35_permutation_partial : forall nbs start nodemap0 b e k, ugraph nbs -> Zlen nbs < 1000000000 -> 0 <= start < Zlen nbs -> Zlen nodemap0 = Zlen nbs ->
  Graph_Find_ExtremalNodes (Zlen nbs) (concat nbs) (degrees nbs) (starts_at nbs) start None = Ok (b, Some e) -> dist nbs b e k ->
  (forall v, 0 <= v < Zlen nbs -> exists i j, dist nbs b v i /\ dist nbs e v j /\ (i + j = k)%nat) ->
  exists num maxwidth, Graph_Renumber_GPS (Zlen nbs) start (degrees nbs) (concat nbs) nodemap0 = Ok (map Some num, maxwidth) /\
    Permutation num (zrange 0 (Zlen nbs)) /\
    exists level, length level = length nbs /\ (forall v j, 0 <= v < Zlen nbs -> dist nbs b v j -> nth (Z.to_nat v) level 0 = Z.of_nat j + 1) /\
      (forall i, Z.of_nat (width level i) <= maxwidth) /\ exists i, Z.of_nat (width level i) = maxwidth.
Proof.
  intros nbs start nm0 b e k U Hn Hs Ln EF Dk A. pose proof (wf_graph nbs (u_wf _ U)) as G. set (n := Zlen nbs) in *.
  destruct (find_ends_ok _ _ _ _ _ G ltac:(lia) (u_sym _ U) (ugraph_conn _ U) start None Hs) as (b' & e' & E & Rb & Re & o1 & l1 & w1 & o2 & l2 & w2 & d & V1 & V2 & Ed). rewrite E in EF. inversion EF; subst b' e'. clear EF.
  assert (Ek : Z.of_nat k + 1 = d). { destruct (levels_dist _ _ _ _ _ _ V1 e Re) as (k' & Dk' & Ek'). rewrite (dist_unique _ _ _ _ _ Dk Dk'). lia. }
  assert (AG : forall v, 0 <= v < n -> l1 v = d + 1 - l2 v). { intros v Hv. destruct (A v Hv) as (i & j & Di & Dj & S). destruct (levels_dist _ _ _ _ _ _ V1 v Hv) as (i' & Di' & Ei'). destruct (levels_dist _ _ _ _ _ _ V2 v Hv) as (j' & Dj' & Ej'). rewrite (dist_unique _ _ _ _ _ Di' Di) in Ei'. rewrite (dist_unique _ _ _ _ _ Dj' Dj) in Ej'. lia. }
  destruct (minwidth_agree _ _ _ _ _ G ltac:(lia) (ugraph_conn _ U) b e (malloc n) _ _ _ _ _ _ _ Rb Re (malloc_len n ltac:(lia)) V1 V2 AG) as (level & EM & HL).
  destruct (assign_numbers_ok n _ _ _ _ l1 level nm0 b e G (ugraph_nd _ U) HL) as (nm & ord & depth & swap & EN & HN & ND & RO & D1 & D2 & C1 & C2); auto. intros v Hv. pose proof (levels_pos _ _ _ _ _ _ _ V1 v Hv). lia. lia.
  assert (depth = d). { destruct D2 as (v & Rv & Ev). pose proof (proj1 (l_depth _ _ _ _ _ _ _ V1) v Rv). destruct (l_depth _ _ _ _ _ _ _ V1) as (_ & v' & Rv' & Ev' & _). specialize (D1 v' Rv'). lia. } subst depth.
  assert (AL : forall v, 0 <= v < n -> In v ord).
  { intros v Hv. apply C2. apply (levels_pos _ _ _ _ _ _ _ V1). assert (CC : forall x o lv w, levels n (nbrs nbs) x o lv d w -> 0 <= x < n -> forall j v, walk_to (nbrs nbs) x j v -> lv v = Z.of_nat j + 1 -> climb (nbrs nbs) lv x v).
    { intros x o lv w V Rx j y W. induction W as [|j u y W IH Hy]; intros Ey. constructor. assert (Ru : 0 <= u < n). { clear - W Rx G. induction W; auto. eapply (g_rng _ _ _ _ _ G); eauto. } destruct (l_walk _ _ _ _ _ _ _ V u Ru) as (ju & Wu & Eu). pose proof (l_least _ _ _ _ _ _ _ V _ _ W). assert (Wy : walk_to (nbrs nbs) x (S ju) y) by (apply walk_S with (v := u); auto). apply (l_least _ _ _ _ _ _ _ V) in Wy. apply climb_S with (u := u); auto. apply IH; lia. lia. }
    destruct swap.
    - apply (climb_ext _ l2 _ e n); auto. apply (g_rng _ _ _ _ _ G). intros x Hx. cbv beta. rewrite (AG x Hx). lia. destruct (l_walk _ _ _ _ _ _ _ V2 v Hv) as (j & W & Ej). eapply CC; eauto.
    - destruct (l_walk _ _ _ _ _ _ _ V1 v Hv) as (j & W & Ej). apply (climb_ext _ l1 _ b n); auto. apply (g_rng _ _ _ _ _ G). eapply CC; eauto. }
  exists (map (numb ord) (zrange 0 n)), w1. split.
  { unfold Graph_Renumber_GPS. pose proof (starts_at_ok nbs ltac:(fold n; lia)) as ES. fold n in ES. destruct (wr (malloc n) 0 0) as [a0| | |]; cbn [bind] in *; try discriminate. destruct (foldM _ a0 _) as [a1| | |]; cbn [bind] in *; try discriminate. rewrite ES. cbn [bind]. rewrite E. cbn [bind]. rewrite EM. cbn [bind]. rewrite EN. cbn [bind]. rewrite (holds_full nm n _ ltac:(lia) HN). auto. }
  assert (PO : Permutation ord (zrange 0 n)). { apply NoDup_Permutation; auto. apply NoDup_zrange. intros x. rewrite In_zrange. split; auto. }
  assert (LO : length ord = Z.to_nat n) by (rewrite (Permutation_length PO), zrange_length; lia).
  assert (NU : forall x, In x ord -> 0 <= numb ord x < n /\ nth (Z.to_nat (numb ord x)) ord 0 = x). { intros x Hx. unfold numb. destruct (index_of_in _ _ Hx) as (i & Ei). rewrite Ei. destruct (index_of_nth _ _ _ Ei) as (Hi & Hx'). split. lia. rewrite Nat2Z.id. auto. }
  split.
  { apply full_perm. lia. apply nodup_map_inj; [|apply NoDup_zrange]. intros x y Hx Hy HH. apply In_zrange in Hx, Hy. rewrite <- (proj2 (NU x (AL x Hx))), <- (proj2 (NU y (AL y Hy))), HH. auto. intros x Hx. apply in_map_iff in Hx. destruct Hx as (y & <- & Hy). apply In_zrange in Hy. apply NU; auto. unfold ZL. rewrite map_length, zrange_length. lia. }
  exists (map l1 (zrange 0 n)). split. rewrite map_length, zrange_length. unfold n, Zlen. lia. split.
  { intros v j Hv Dj. rewrite nth_map_zrange by auto. destruct (levels_dist _ _ _ _ _ _ V1 v Hv) as (j' & Dj' & Ej'). rewrite (dist_unique _ _ _ _ _ Dj Dj'). auto. }
  destruct (l_width _ _ _ _ _ _ _ V1) as (W1 & i & _ & W2). split. intros j. rewrite <- count_width by lia. auto. exists i. rewrite <- count_width by lia. auto.
Qed.
Print Assumptions C35_permutation_partial.

(** For every connected graph: if the run finishes, the numbers given are 0..k-1,
    each to one node, and the rest is -1.  A node gets a number exactly if it can
    be reached from one of the ends by a walk that never goes down in the levels
    assigned, and these are distances from one end or the mirrored distances from
    the other. *)
Theorem C35_numbers_partial : forall nbs start nodemap0 nm maxwidth, ugraph nbs -> Zlen nbs < 1000000000 -> 0 <= start < Zlen nbs -> Zlen nodemap0 = Zlen nbs ->
  Graph_Renumber_GPS (Zlen nbs) start (degrees nbs) (concat nbs) nodemap0 = Ok (nm, maxwidth) ->
  exists num order, nm = map Some num /\ length num = length nbs /\ NoDup order /\ (forall v, In v order -> 0 <= v < Zlen nbs) /\
    (forall i, (i < length order)%nat -> nth (Z.to_nat (nth i order 0)) num 0 = Z.of_nat i) /\ (forall v, 0 <= v < Zlen nbs -> ~ In v order -> nth (Z.to_nat v) num 0 = -1) /\
    exists b e k lv, 0 <= b < Zlen nbs /\ 0 <= e < Zlen nbs /\ dist nbs b e k /\ ecc nbs b k /\ ecc nbs e k /\
      (forall v i j, 0 <= v < Zlen nbs -> dist nbs b v i -> dist nbs e v j -> lv v = Z.of_nat i \/ lv v = Z.of_nat k - Z.of_nat j) /\
      (forall v, In v order <-> rises nbs lv b v).
Proof.
  intros nbs start nm0 nm mw U Hn Hs Ln ER. pose proof (wf_graph nbs (u_wf _ U)) as G. set (n := Zlen nbs) in *.
  destruct (find_ends_ok _ _ _ _ _ G ltac:(lia) (u_sym _ U) (ugraph_conn _ U) start None Hs) as (b & e & E & Rb & Re & o1 & l1 & w1 & o2 & l2 & w2 & d & V1 & V2 & Ed).
  unfold Graph_Renumber_GPS in ER. pose proof (starts_at_ok nbs ltac:(fold n; lia)) as ES. fold n in ES. destruct (wr (malloc n) 0 0) as [a0| | |]; cbn [bind] in *; try discriminate. destruct (foldM _ a0 _) as [a1| | |]; cbn [bind] in *; try discriminate. rewrite ES in ER. cbn [bind] in ER. rewrite E in ER. cbn [bind] in ER.
  apply bind_ok in ER. destruct ER as ([level mw'] & EM & ER). apply bind_ok in ER. destruct ER as (nm' & EN & ER). inversion ER; subst nm' mw'. clear ER ES.
  destruct (minwidth_inv _ _ _ _ _ G ltac:(lia) (ugraph_conn _ U) b e (malloc n) _ _ _ _ _ _ _ _ _ Rb Re (malloc_len n ltac:(lia)) V1 V2 EM) as (lv & HL & LV).
  assert (P1 : forall v, 0 <= v < n -> 1 <= lv v <= d). { intros v Hv. pose proof (levels_pos _ _ _ _ _ _ _ V1 v Hv). pose proof (levels_pos _ _ _ _ _ _ _ V2 v Hv). pose proof (proj1 (l_depth _ _ _ _ _ _ _ V1) v Hv). pose proof (proj1 (l_depth _ _ _ _ _ _ _ V2) v Hv). destruct (LV v Hv); lia. }
  destruct (assign_numbers_ok n _ _ _ _ lv level nm0 b e G (ugraph_nd _ U) HL) as (nm' & ord & depth & swap & EN' & HN & ND & RO & D1 & D2 & C1 & C2); auto. intros v Hv. specialize (P1 v Hv). lia. lia. rewrite EN in EN'. inversion EN'; subst nm'. clear EN'. specialize (C2 (fun v Hv => proj1 (P1 v Hv))).
  destruct (levels_ecc _ _ _ _ _ _ V1) as (Dd & EC1). destruct (levels_ecc _ _ _ _ _ _ V2) as (_ & EC2). destruct (levels_dist _ _ _ _ _ _ V1 e Re) as (k & Dk & Ek). destruct (levels_dist _ _ _ _ _ _ V2 b Rb) as (k2 & Dk2 & Ek2).
  assert (SY : l2 b = d). { rewrite <- Ed. symmetry. eapply lv_sym; eauto. apply (u_sym _ U). apply ugraph_conn; auto. }
  assert (Kd : Z.to_nat (d - 1) = k) by lia. rewrite Kd in *. assert (K2 : k2 = k) by lia. subst k2.
  assert (DD : depth = d). { destruct D2 as (v & Rv & Ev). pose proof (P1 v Rv). assert (depth <= d) by lia. pose proof (D1 e Re). destruct (LV e Re) as [L|L]. lia. pose proof (levels_dist _ _ _ _ _ _ V2 e Re) as (j & (W & J) & Ej). specialize (J 0%nat (walk_0 _ _)). lia. } subst depth.
  exists (map (numb ord) (zrange 0 n)), ord. split. apply holds_full; auto. lia. split. rewrite map_length, zrange_length. unfold n, Zlen. lia. split; auto. split; auto.
  split. { intros i Hi. rewrite nth_map_zrange by (apply RO, nth_In; auto). unfold numb. rewrite (nth_index_of _ _ ND Hi). reflexivity. }
  split. { intros v Hv Nv. rewrite nth_map_zrange by auto. unfold numb. rewrite index_of_out; auto. }
  assert (CC : forall b' lv', (forall v, 0 <= v < n -> lv' v = (if swap then d - lv v + 1 else lv v) - 1) -> 0 <= b' < n -> b' = (if swap then e else b) -> forall v, In v ord <-> rises nbs lv' b' v).
  { intros b' lv' Hlv Rb' Eb v. rewrite rises_climb. split; intros H.
    - apply C1 in H. rewrite <- Eb in H. clear - H Hlv Rb' G. assert (climb (nbrs nbs) lv' b' v /\ 0 <= v < n); [|tauto]. induction H as [|u w H (IH & Ru) Hw Hl]. split; auto. constructor. assert (0 <= w < n) by (eapply (g_rng _ _ _ _ _ G); eauto). split; auto. apply climb_S with (u := u); auto. rewrite !Hlv by auto. lia.
    - apply C2. rewrite <- Eb. clear - H Hlv Rb' G. assert (climb (nbrs nbs) (fun v => if swap then d - lv v + 1 else lv v) b' v /\ 0 <= v < n); [|tauto]. induction H as [|u w H (IH & Ru) Hw Hl]. split; auto. constructor. assert (0 <= w < n) by (eapply (g_rng _ _ _ _ _ G); eauto). split; auto. apply climb_S with (u := u); auto. rewrite !Hlv in Hl by auto. lia. }
  destruct swap.
  - exists e, b, k, (fun v => d - lv v). split; auto. split; auto. split; auto. split; auto. split; auto. split; [|apply CC; auto; intros; lia].
    intros v i j Hv Di Dj. destruct (levels_dist _ _ _ _ _ _ V1 v Hv) as (j' & Dj' & Ej). rewrite (dist_unique _ _ _ _ _ Dj' Dj) in Ej. destruct (levels_dist _ _ _ _ _ _ V2 v Hv) as (i' & Di' & Ei). rewrite (dist_unique _ _ _ _ _ Di' Di) in Ei. destruct (LV v Hv); lia.
  - exists b, e, k, (fun v => lv v - 1). split; auto. split; auto. split; auto. split; auto. split; auto. split; [|apply CC; auto; intros; lia].
    intros v i j Hv Di Dj. destruct (levels_dist _ _ _ _ _ _ V1 v Hv) as (i' & Di' & Ei). rewrite (dist_unique _ _ _ _ _ Di' Di) in Ei. destruct (levels_dist _ _ _ _ _ _ V2 v Hv) as (j' & Dj' & Ej). rewrite (dist_unique _ _ _ _ _ Dj' Dj) in Ej. destruct (LV v Hv); lia.
Qed.
Print Assumptions C35_numbers_partial.

(** ** Examples *)

Lemma walk_app : forall nb u j v, walk_to nb u j v -> forall k w, walk_to nb v k w -> walk_to nb u (j + k) w.
Proof. intros nb u j v A k w B. induction B. rewrite Nat.add_0_r. auto. rewrite Nat.add_succ_r. econstructor; eauto. Qed.
(** Checked by computation, and walks from one node. *)
Definition ug_check (nbs : list (list Z)) : bool :=
  forallb (forallb (fun v => (0 <=? v) && (v <? Zlen nbs))) nbs && forallb (fun u => forallb (fun v => existsb (Z.eqb u) (nbrs nbs v)) (nbrs nbs u)) (zrange 0 (Zlen nbs)) &&
  forallb (fun l => (length (nodup Z.eq_dec l) =? length l)%nat) nbs.
Lemma nodup_len : forall l, length (nodup Z.eq_dec l) = length l -> NoDup l.
Proof.
  induction l as [|x l IH]; cbn; intros H. constructor. assert (L : (length (nodup Z.eq_dec l) <= length l)%nat) by (clear; induction l as [|y l IH]; cbn; auto; destruct (in_dec Z.eq_dec y l); cbn; lia).
  destruct (in_dec Z.eq_dec x l). lia. cbn in H. constructor; auto.
Qed.
Lemma ug_ok : forall nbs r, ug_check nbs = true -> 0 <= r < Zlen nbs -> connected nbs r -> ugraph nbs.
Proof.
  intros nbs r H Hr C. unfold ug_check in H. apply andb_true_iff in H. destruct H as (H & H3). apply andb_true_iff in H. destruct H as (H1 & H2).
  assert (W : wf_nbs nbs). { unfold wf_nbs. apply Forall_forall. intros l Hl. apply Forall_forall. intros v Hv. rewrite forallb_forall in H1. specialize (H1 l Hl). rewrite forallb_forall in H1. specialize (H1 v Hv). lia. }
  assert (SY : forall u v, 0 <= u < Zlen nbs -> In v (nbrs nbs u) -> In u (nbrs nbs v)). { intros u v Hu Hv. rewrite forallb_forall in H2. specialize (H2 u (proj2 (In_zrange _ _ _) Hu)). rewrite forallb_forall in H2. specialize (H2 v Hv). apply existsb_exists in H2. destruct H2 as (x & Hx & E). apply Z.eqb_eq in E. congruence. }
  split; auto.
  - apply Forall_forall. intros l Hl. rewrite forallb_forall in H3. specialize (H3 l Hl). apply nodup_len. lia.
  - intros u Hu v Hv. destruct (C u Hu) as (j & Wj). destruct (C v Hv) as (k & Wk). exists (j + k)%nat. apply walk_app with (v := r); auto. eapply walk_sym; eauto. apply (wf_graph nbs W).
Qed.
(** Distances read off a run of the level structure. *)
Lemma dist_run : forall nbs root order level depth mw, wf_nbs nbs -> 0 <= root < Zlen nbs -> connected nbs root ->
  Graph_Build_LevelStructure (Zlen nbs) (concat nbs) (degrees nbs) (starts_at nbs) root (malloc (Zlen nbs)) (malloc (Zlen nbs)) = Ok (map Some order, map Some level, depth, mw) ->
  forall v, 0 <= v < Zlen nbs -> dist nbs root v (Z.to_nat (nth (Z.to_nat v) level 0 - 1)).
Proof.
  intros nbs root order level depth mw W Hr C E v Hv. assert (Lm : Zlen (@malloc Z (Zlen nbs)) = Zlen nbs) by (unfold Zlen; unfold malloc; rewrite repeat_length; lia).
  destruct (C34_level_structure nbs root (malloc (Zlen nbs)) (malloc (Zlen nbs)) W Hr C Lm Lm) as (o & l & d & w & E' & _ & _ & _ & D1 & D2 & _). rewrite E in E'. inversion E'. assert (SI : forall a b : list Z, map Some a = map Some b -> a = b). { induction a; destruct b; cbn; intros HH; inversion HH; auto. f_equal; auto. } apply SI in H1. subst l.
  destruct (D2 v Hv) as (k & Dk). rewrite (D1 v k Hv Dk). replace (Z.to_nat (Z.of_nat k + 1 - 1)) with k by lia. auto.
Qed.
Lemma cover9 : forall (P : Z -> Prop), P 0 -> P 1 -> P 2 -> P 3 -> P 4 -> P 5 -> P 6 -> P 7 -> P 8 -> forall v, 0 <= v < 9 -> P v.
Proof. intros. assert (HH : v = 0 \/ v = 1 \/ v = 2 \/ v = 3 \/ v = 4 \/ v = 5 \/ v = 6 \/ v = 7 \/ v = 8) by lia. repeat (destruct HH as [->|HH]); auto. subst; auto. Qed.
Lemma grid3_ug : ugraph grid3.
Proof. apply ug_ok with (r := 0). vm_compute. reflexivity. change (Zlen grid3) with 9. lia. apply C34_ex. Qed.

(** The grid from its middle node: the ends are two opposite corners. *)
Example C35_grid_ex : ugraph grid3 /\ Graph_Find_ExtremalNodes 9 (concat grid3) (degrees grid3) (starts_at grid3) 4 None = Ok (2, Some 6) /\ dist grid3 2 6 4 /\
  (forall v, 0 <= v < 9 -> exists i j, dist grid3 2 v i /\ dist grid3 6 v j /\ (i + j = 4)%nat) /\
  Graph_Renumber_GPS 9 4 (degrees grid3) (concat grid3) (malloc 9) = Ok (map Some [3; 1; 0; 6; 4; 2; 8; 7; 5], 3).
Proof.
  split. apply grid3_ug. split. vm_compute. reflexivity. pose proof grid3_ug as U.
  assert (D2 := fun l => dist_run grid3 2 l [3; 2; 1; 4; 3; 2; 5; 4; 3] 5 3 (u_wf _ U)). assert (D6 := fun l => dist_run grid3 6 l [3; 4; 5; 2; 3; 4; 1; 2; 3] 5 3 (u_wf _ U)). change (Zlen grid3) with 9 in D2, D6.
  specialize (D2 [2; 1; 5; 0; 4; 8; 3; 7; 6] ltac:(lia) (u_conn _ U 2 ltac:(change (Zlen grid3) with 9; lia)) ltac:(vm_compute; reflexivity)). specialize (D6 [6; 3; 7; 0; 4; 8; 1; 5; 2] ltac:(lia) (u_conn _ U 6 ltac:(change (Zlen grid3) with 9; lia)) ltac:(vm_compute; reflexivity)).
  split. apply (D2 6). lia. split; [|vm_compute; reflexivity]. intros v Hv. exists (Z.to_nat (nth (Z.to_nat v) [3; 2; 1; 4; 3; 2; 5; 4; 3] 0 - 1)), (Z.to_nat (nth (Z.to_nat v) [3; 4; 5; 2; 3; 4; 1; 2; 3] 0 - 1)). split. apply D2; auto. split. apply D6; auto. revert v Hv. apply cover9; vm_compute; reflexivity.
Qed.
(** A path of five nodes with a leaf beside its end: one node gets no number. *)
Definition fork : list (list Z) := [[1]; [0; 2]; [1; 3; 4]; [2]; [2]].
Lemma fork_ug : ugraph fork.
Proof.
  apply ug_ok with (r := 0). vm_compute. reflexivity. change (Zlen fork) with 5. lia. intros v Hv. change (Zlen fork) with 5 in Hv. assert (v = 0 \/ v = 1 \/ v = 2 \/ v = 3 \/ v = 4) by lia.
  destruct H as [->|[->|[->|[->| ->]]]]; [apply (route_walk _ []) with (k := 0%nat) (u := 0) (root := 0)|apply (route_walk _ [1]) with (k := 0%nat) (u := 0) (root := 0)|apply (route_walk _ [1; 2]) with (k := 0%nat) (u := 0) (root := 0)|
    apply (route_walk _ [1; 2; 3]) with (k := 0%nat) (u := 0) (root := 0)|apply (route_walk _ [1; 2; 4]) with (k := 0%nat) (u := 0) (root := 0)]; try constructor; vm_compute; reflexivity.
Qed.
Theorem C35_node_without_number_refuted : exists nbs start num maxwidth v, ugraph nbs /\ 0 <= start < Zlen nbs /\
  Graph_Renumber_GPS (Zlen nbs) start (degrees nbs) (concat nbs) (malloc (Zlen nbs)) = Ok (map Some num, maxwidth) /\ 0 <= v < Zlen nbs /\ nth (Z.to_nat v) num 0 = -1.
Proof. exists fork, 0, [0; 1; 2; -1; 3]. eexists. exists 3. split. apply fork_ug. split. change (Zlen fork) with 5. lia. split. vm_compute. reflexivity. split. change (Zlen fork) with 5. lia. reflexivity. Qed.
Print Assumptions C35_node_without_number_refuted.
Example C35_numbers_ex : ugraph fork /\ Graph_Renumber_GPS 5 0 (degrees fork) (concat fork) (malloc 5) = Ok (map Some [0; 1; 2; -1; 3], 2).
Proof. split. apply fork_ug. vm_compute. reflexivity. Qed.
(** The seed of a connected set is added a second time through its neighbour and
    the array of the set overflows. *)
Definition branched : list (list Z) := [[1]; [0; 2]; [1; 3]; [2; 4; 7]; [3; 5]; [4; 6]; [5]; [3; 8]; [7]].
Lemma branched_ug : ugraph branched.
Proof.
  apply ug_ok with (r := 0). vm_compute. reflexivity. change (Zlen branched) with 9. lia. unfold connected. change (Zlen branched) with 9. apply cover9;
  [apply (route_walk _ []) with (k := 0%nat) (u := 0) (root := 0)|apply (route_walk _ [1]) with (k := 0%nat) (u := 0) (root := 0)|apply (route_walk _ [1; 2]) with (k := 0%nat) (u := 0) (root := 0)|
    apply (route_walk _ [1; 2; 3]) with (k := 0%nat) (u := 0) (root := 0)|apply (route_walk _ [1; 2; 3; 4]) with (k := 0%nat) (u := 0) (root := 0)|apply (route_walk _ [1; 2; 3; 4; 5]) with (k := 0%nat) (u := 0) (root := 0)|
    apply (route_walk _ [1; 2; 3; 4; 5; 6]) with (k := 0%nat) (u := 0) (root := 0)|apply (route_walk _ [1; 2; 3; 7]) with (k := 0%nat) (u := 0) (root := 0)|apply (route_walk _ [1; 2; 3; 7; 8]) with (k := 0%nat) (u := 0) (root := 0)]; try constructor; vm_compute; reflexivity.
Qed.
Theorem C35_overflow_refuted : exists nbs start, ugraph nbs /\ 0 <= start < Zlen nbs /\ Graph_Renumber_GPS (Zlen nbs) start (degrees nbs) (concat nbs) (malloc (Zlen nbs)) = Undef.
Proof. exists branched, 0. split. apply branched_ug. split. change (Zlen branched) with 9. lia. vm_compute. reflexivity. Qed.
Print Assumptions C35_overflow_refuted.
