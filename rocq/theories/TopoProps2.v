(** Queries on the F1 topology: C23 (vertices and edges around a face) and C26
    (upward and downward adjacency queries). *)
From Coq Require Import ZArith List Lia Bool Arith ZifyBool ZifyNat Permutation.
From Verif Require Import Base BaseProofs ListSpec AttModel AttProps ParModel ParProps TopoModel TopoSpec TopoProofs TopoProofs2 TopoProofs3 TopoProofs4 TopoProofs5 TopoProofs6 TopoProofs7 TopoProps.
Import ListNotations.
Open Scope Z_scope.

(** * C23 *)

(** The loop of a face walked in its own direction or against it. *)
Definition turned (b : list (ptr * bool)) : list (ptr * bool) := rev (map (fun x => (fst x, negb (snd x))) b).
Definition walk (dir : bool) (b : list (ptr * bool)) := if dir then b else turned b.
(** Vertices [vs] around the loop [c]: edge number i, used in its direction,
    leads from vertex i to the next one, the last one back to the first. *)
Definition around (a : amesh) (vs : list ptr) (c : list (ptr * bool)) : Prop :=
  length vs = length c /\
  forall i e d, nth_error c i = Some (e, d) -> exists x v w, a_e a e = Some (true, x) /\
    nth_error vs i = Some v /\ nth_error vs (S i mod length c) = Some w /\ d_start x d = v /\ d_end x d = w.

(** Start and end of a used edge. *)
Definition vat a (x : ptr * bool) : ptr := match a_e a (fst x) with Some (_, p) => d_start p (snd x) | None => NULL end.
Definition vend a (x : ptr * bool) : ptr := match a_e a (fst x) with Some (_, p) => d_end p (snd x) | None => NULL end.
Definition dflt : ptr * bool := (NULL, true).
Definition edge_ok a (x : ptr * bool) := exists p, a_e a (fst x) = Some (true, p).
Definition linked a (b : list (ptr * bool)) := Forall (edge_ok a) b /\
  forall i, (i < length b)%nat -> vend a (nth i b dflt) = vat a (nth (S i mod length b) b dflt).

Lemma path_links : forall a b v v', path a v b v' -> b <> [] -> Forall (edge_ok a) b /\ vat a (nth 0 b dflt) = v /\
  (forall i, (S i < length b)%nat -> vend a (nth i b dflt) = vat a (nth (S i) b dflt)) /\ vend a (nth (length b - 1) b dflt) = v'.
Proof.
  induction b as [|[e d] b IH]; intros v v' H HN; [congruence|]. cbn [path] in H. destruct H as (x & H1 & H2 & H3 & H4).
  assert (EO : edge_ok a (e, d)) by (exists x; auto).
  assert (VA : vat a (e, d) = v) by (unfold vat; cbn [fst snd]; rewrite H1; auto). assert (VE : vend a (e, d) = d_end x d) by (unfold vend; cbn [fst snd]; rewrite H1; auto).
  destruct b as [|y b].
  - cbn in H4. split; [auto|]. split; [auto|]. split; [cbn; lia|]. cbn. congruence.
  - destruct (IH _ _ H4) as (I1 & I2 & I3 & I4). discriminate. split; [constructor; auto|]. split; [auto|]. split.
    + intros [|i] Hi; cbn [nth] in *. rewrite VE. auto. apply I3. cbn [length] in *. lia.
    + cbn [length] in *. replace (S (S (length b)) - 1)%nat with (S (S (length b) - 1)) by lia. cbn [nth] in *. auto.
Qed.
Lemma closed_linked : forall a b v, path a v b v -> linked a b.
Proof.
  intros a b v H. destruct b as [|x b]. split; auto. cbn. lia.
  destruct (path_links _ _ _ _ H) as (H1 & H2 & H3 & H4). discriminate. split; auto. intros i Hi. destruct (Nat.eq_dec (S i) (length (x :: b))) as [E|E].
  - rewrite E, Nat.mod_same by lia. replace i with (length (x :: b) - 1)%nat by lia. congruence.
  - rewrite Nat.mod_small by lia. apply H3. lia.
Qed.

Definition inv_dir (x : ptr * bool) : ptr * bool := (fst x, negb (snd x)).
Lemma vat_inv : forall a x, vat a (inv_dir x) = vend a x.
Proof. intros a [e d]. unfold vat, vend, inv_dir. cbn. destruct (a_e a e) as [[]|]; auto. destruct d; auto. Qed.
Lemma vend_inv : forall a x, vend a (inv_dir x) = vat a x.
Proof. intros a [e d]. unfold vat, vend, inv_dir. cbn. destruct (a_e a e) as [[]|]; auto. destruct d; auto. Qed.
Lemma turned_length : forall b, length (turned b) = length b.
Proof. intros. unfold turned. rewrite rev_length, map_length. auto. Qed.
Lemma turned_nth : forall b i, (i < length b)%nat -> nth i (turned b) dflt = inv_dir (nth (length b - 1 - i) b dflt).
Proof.
  intros b i Hi. unfold turned. rewrite rev_nth by (rewrite map_length; auto). rewrite map_length. replace (length b - S i)%nat with (length b - 1 - i)%nat by lia.
  rewrite (nth_indep _ dflt (inv_dir dflt)) by (rewrite map_length; lia). apply (map_nth inv_dir).
Qed.
Lemma mod_S : forall i n, (i < n)%nat -> (S i mod n = if S i =? n then 0 else S i)%nat.
Proof. intros i n H. destruct (Nat.eqb_spec (S i) n) as [E|E]. rewrite E. apply Nat.mod_same. lia. apply Nat.mod_small. lia. Qed.
Lemma linked_turned : forall a b, linked a b -> linked a (turned b).
Proof.
  intros a b (H1 & H2). split.
  - unfold turned. apply Forall_rev. apply Forall_map. eapply Forall_impl; [|apply H1]. intros [e d] [p Hp]. exists p. auto.
  - intros i Hi. rewrite turned_length in *. rewrite mod_S by auto. destruct (Nat.eqb_spec (S i) (length b)) as [E|E].
    + rewrite !turned_nth by lia. rewrite vend_inv, vat_inv. rewrite (H2 (length b - 1 - 0)%nat) by lia. rewrite mod_S by lia. replace (S (length b - 1 - 0) =? length b)%nat with true by (symmetry; apply Nat.eqb_eq; lia). do 2 f_equal. lia.
    + rewrite !turned_nth by lia. rewrite vend_inv, vat_inv. rewrite (H2 (length b - 1 - S i)%nat) by lia. rewrite mod_S by lia. replace (S (length b - 1 - S i) =? length b)%nat with false by (symmetry; apply Nat.eqb_neq; lia). do 2 f_equal. lia.
Qed.
Definition rot (k : nat) (b : list (ptr * bool)) := skipn k b ++ firstn k b.
Lemma rot_length : forall k b, length (rot k b) = length b.
Proof. intros. unfold rot. rewrite app_length, skipn_length, firstn_length. lia. Qed.
Lemma rot_nth : forall k b i, (k < length b)%nat -> (i < length b)%nat -> nth i (rot k b) dflt = nth ((k + i) mod length b) b dflt.
Proof.
  intros k b i Hk Hi. unfold rot. rewrite nth_app_if, skipn_length. destruct (Nat.ltb_spec i (length b - k)).
  - rewrite nth_skipn, Nat.mod_small by lia. auto.
  - replace ((k + i) mod length b)%nat with (k + i - length b)%nat by (apply Nat.mod_unique with (q := 1%nat); lia). rewrite nth_firstn_lt by lia. f_equal. lia.
Qed.
Lemma linked_rot : forall a b k, (k < length b)%nat -> linked a b -> linked a (rot k b).
Proof.
  intros a b k Hk (H1 & H2). split.
  - unfold rot. apply Forall_app. rewrite <- (firstn_skipn k b) in H1. apply Forall_app in H1. tauto.
  - intros i Hi. rewrite rot_length in *. assert (M : (S i mod length b < length b)%nat) by (apply Nat.mod_upper_bound; lia).
    rewrite !rot_nth by auto. rewrite H2 by (apply Nat.mod_upper_bound; lia). do 2 f_equal.
    rewrite Nat.add_mod_idemp_r by lia. replace (S ((k + i) mod length b)) with (((k + i) mod length b) + 1)%nat by lia. rewrite Nat.add_mod_idemp_l by lia. f_equal. lia.
Qed.
(** A linked loop has its start vertices around it. *)
Lemma linked_around : forall a b, linked a b -> around a (map (vat a) b) b.
Proof.
  intros a b (H1 & H2). split. apply map_length. intros i e d Hi.
  assert (L : (i < length b)%nat) by (apply nth_error_Some; congruence). assert (M : (S i mod length b < length b)%nat) by (apply Nat.mod_upper_bound; lia).
  pose proof (nth_error_nth _ _ dflt Hi) as En. rewrite Forall_forall in H1. destruct (H1 (e, d) (nth_error_In _ _ Hi)) as [x Hx]. cbn in Hx.
  exists x, (vat a (e, d)), (vat a (nth (S i mod length b) b dflt)). split; auto. split. rewrite nth_error_map, Hi. auto. split.
  - rewrite nth_error_map. rewrite (nth_error_nth' b dflt) by auto. auto.
  - split. unfold vat. cbn. rewrite Hx. auto. rewrite <- H2 by auto. rewrite En. unfold vend. cbn. rewrite Hx. auto.
Qed.

(** ** What the code computes *)

Definition dz (dir : bool) : Z := b2z dir.
Definition sv (a : amesh) (dir : bool) (b : list (ptr * bool)) (k : nat) : ptr := if dir then vat a (nth k b dflt) else vend a (nth k b dflt).
Lemma start_v_ok : forall t a l w b dir k, inv t a -> rep l w b -> Forall (edge_ok a) b -> (k < length b)%nat ->
  start_v t l w (dz dir) (Z.of_nat k) = Ok (sv a dir b k).
Proof.
  intros t a l w b dir k I (-> & L & B) H Hk. unfold start_v, lent. replace (Z.of_nat k <? 0) with false by lia. cbn [bind]. rewrite bit64_ok by lia. cbn [bind]. rewrite B by lia. rewrite Nat2Z.id.
  change (NULL, true) with dflt. replace (nth k (map fst b) NULL) with (fst (nth k b dflt)) by (symmetry; apply (map_nth fst b dflt)). rewrite Forall_forall in H. destruct (H (nth k b dflt)) as [p Hp]. apply nth_In; auto.
  unfold sv, vat, vend, dz. rewrite Hp. destruct dir.
  - rewrite <- (ev_start t a _ p _ I Hp). destruct (snd (nth k b dflt)); auto.
  - rewrite <- (ev_end t a _ p _ I Hp). destruct (snd (nth k b dflt)); auto.
Qed.
Lemma find_start_ok : forall t a l w b dir v0, inv t a -> rep l w b -> Forall (edge_ok a) b -> forall k0, (k0 <= length b)%nat -> exists o,
  find_start t l w (dz dir) v0 (zrange (Z.of_nat k0) (ZL l)) = Ok o /\
  match o with
  | Some k => exists j, k = Z.of_nat j /\ (k0 <= j < length b)%nat /\ sv a dir b j = v0
  | None => forall j, (k0 <= j < length b)%nat -> sv a dir b j <> v0
  end.
Proof.
  intros t a l w b dir v0 I R H k0 Hk0. assert (EL : ZL l = Z.of_nat (length b)) by (destruct R as (-> & _); unfold ZL; rewrite map_length; auto).
  remember (length b - k0)%nat as m. revert k0 Hk0 Heqm. induction m as [|m IH]; intros k0 Hk0 Hm.
  - rewrite zrange_nil by lia. exists None. split; auto. intros j Hj. lia.
  - rewrite zrange_cons by lia. cbn [find_start]. rewrite (start_v_ok t a l w b dir k0) by (auto; lia). cbn [bind]. destruct (Z.eqb_spec (sv a dir b k0) v0) as [E|E].
    + exists (Some (Z.of_nat k0)). split; auto. exists k0. split; auto. split; [lia|auto].
    + destruct (IH (S k0) ltac:(lia) ltac:(lia)) as (o & Ho & HH). exists o. replace (Z.of_nat k0 + 1) with (Z.of_nat (S k0)) by lia. split; auto. destruct o as [k|].
      * destruct HH as (j & A & B & C). exists j. split; auto. split; [lia|auto].
      * intros j Hj. destruct (Nat.eq_dec j k0) as [->|]; auto. apply HH. lia.
Qed.
(** The edge met at step [i] when starting at edge [k]. *)
Definition pos (dir : bool) (n k i : nat) : nat := if dir then ((k + i) mod n)%nat else ((k + n - i) mod n)%nat.
Lemma pos_lt : forall dir n k i, (0 < n)%nat -> (pos dir n k i < n)%nat.
Proof. intros. unfold pos. destruct dir; apply Nat.mod_upper_bound; lia. Qed.
Definition use (dir : bool) (x : ptr * bool) := if dir then x else inv_dir x.
Lemma sv_use : forall a dir b k, sv a dir b k = vat a (use dir (nth k b dflt)).
Proof. intros. unfold sv, use. destruct dir; auto. rewrite vat_inv. auto. Qed.
Definition start_of (dir : bool) (n k : nat) : nat := if dir then k else (n - 1 - k)%nat.
Lemma walk_nth : forall dir b k i, (k < length b)%nat -> (i < length b)%nat ->
  nth i (rot (start_of dir (length b) k) (walk dir b)) dflt = use dir (nth (pos dir (length b) k i) b dflt).
Proof.
  intros dir b k i Hk Hi. unfold walk, start_of, pos, use. destruct dir. apply rot_nth; auto.
  rewrite rot_nth by (rewrite turned_length; lia). rewrite turned_length. assert (M : ((length b - 1 - k + i) mod length b < length b)%nat) by (apply Nat.mod_upper_bound; lia).
  rewrite turned_nth by auto. do 2 f_equal. clear M. destruct (le_lt_dec i k) as [H|H].
  - rewrite (Nat.mod_small (length b - 1 - k + i)) by lia. apply Nat.mod_unique with (q := 1%nat); lia.
  - replace ((length b - 1 - k + i) mod length b)%nat with (i - 1 - k)%nat by (apply Nat.mod_unique with (q := 1%nat); lia). rewrite Nat.mod_small; lia.
Qed.
Lemma walk_length : forall dir b, length (walk dir b) = length b.
Proof. intros []; intros; auto. apply turned_length. Qed.
Lemma linked_walk : forall a dir b, linked a b -> linked a (walk dir b).
Proof. intros a []; intros; auto. apply linked_turned; auto. Qed.
Lemma list_ext : forall A (d : A) l1 l2, length l1 = length l2 -> (forall i, (i < length l1)%nat -> nth i l1 d = nth i l2 d) -> l1 = l2.
Proof. intros. apply nth_ext with (d := d) (d' := d); auto. Qed.
Lemma use_fst : forall dir x, fst (use dir x) = fst x.
Proof. intros [] x; auto. Qed.

Lemma loop_vertices : forall t a l w b dir k, inv t a -> rep l w b -> Forall (edge_ok a) b -> (k < length b)%nat ->
  mapM (fun i => start_v t l w (dz dir) (if dz dir =? 0 then Z.rem (Z.of_nat k + ZL l - i) (ZL l) else Z.rem (Z.of_nat k + i) (ZL l))) (zrange 0 (ZL l)) =
  Ok (map (vat a) (rot (start_of dir (length b) k) (walk dir b))).
Proof.
  intros t a l w b dir k I R H Hk. assert (EL : ZL l = Z.of_nat (length b)) by (destruct R as (-> & _); unfold ZL; rewrite map_length; auto).
  apply mapM_ext_ok. rewrite zrange_length, map_length, rot_length, walk_length. lia.
  intros i d e Hi. rewrite zrange_length in Hi. rewrite nth_zrange by auto. rewrite EL in *.
  replace (if dz dir =? 0 then _ else _) with (Z.of_nat (pos dir (length b) k i)).
  - rewrite (start_v_ok t a l w b dir) by (auto; apply pos_lt; lia). f_equal. rewrite (nth_indep _ e (vat a dflt)) by (rewrite map_length, rot_length, walk_length; lia).
    rewrite map_nth. rewrite walk_nth by lia. apply sv_use.
  - unfold pos, dz. destruct dir; cbn [b2z Z.eqb].
    + replace (0 + Z.of_nat i) with (Z.of_nat i) by lia. rewrite rem_mod by lia. auto.
    + replace (Z.of_nat k + Z.of_nat (length b) - (0 + Z.of_nat i)) with (Z.of_nat (k + length b - i) + Z.of_nat 0) by lia. rewrite rem_mod by lia. f_equal. f_equal. lia.
Qed.
Lemma loop_edges : forall l w b dir k, rep l w b -> (k < length b)%nat ->
  mapM (fun i => lent l (if dz dir =? 0 then Z.rem (Z.of_nat k + ZL l - i) (ZL l) else Z.rem (Z.of_nat k + i) (ZL l))) (zrange 0 (ZL l)) =
  Ok (map fst (rot (start_of dir (length b) k) (walk dir b))).
Proof.
  intros l w b dir k R Hk. destruct R as (-> & _). assert (EL : ZL (map fst b) = Z.of_nat (length b)) by (unfold ZL; rewrite map_length; auto).
  apply mapM_ext_ok. rewrite zrange_length, map_length, rot_length, walk_length. lia.
  intros i d e Hi. rewrite zrange_length in Hi. rewrite nth_zrange by auto. rewrite EL in *.
  replace (if dz dir =? 0 then _ else _) with (Z.of_nat (pos dir (length b) k i)).
  - unfold lent. replace (_ <? 0) with false by lia. rewrite Nat2Z.id. f_equal. change NULL with (fst dflt). rewrite map_nth. rewrite (nth_indep _ e (fst dflt)) by (rewrite map_length, rot_length, walk_length; lia).
    rewrite map_nth. rewrite walk_nth by lia. rewrite use_fst. auto.
  - unfold pos, dz. destruct dir; cbn [b2z Z.eqb].
    + replace (0 + Z.of_nat i) with (Z.of_nat i) by lia. rewrite rem_mod by lia. auto.
    + replace (Z.of_nat k + Z.of_nat (length b) - (0 + Z.of_nat i)) with (Z.of_nat (k + length b - i) + Z.of_nat 0) by lia. rewrite rem_mod by lia. f_equal. f_equal. lia.
Qed.
Lemma plain_vertices : forall t a l w b dir, inv t a -> rep l w b -> Forall (edge_ok a) b ->
  mapM (fun i => start_v t l w (dz dir) (if dz dir =? 0 then ZL l - 1 - i else i)) (zrange 0 (ZL l)) = Ok (map (vat a) (walk dir b)).
Proof.
  intros t a l w b dir I R H. assert (EL : ZL l = Z.of_nat (length b)) by (destruct R as (-> & _); unfold ZL; rewrite map_length; auto).
  apply mapM_ext_ok. rewrite zrange_length, map_length, walk_length. lia.
  intros i d e Hi. rewrite zrange_length in Hi. rewrite nth_zrange by auto. rewrite EL in *. rewrite (nth_indep _ e (vat a dflt)) by (rewrite map_length, walk_length; lia). rewrite map_nth. unfold dz, walk. destruct dir; cbn [b2z Z.eqb].
  - apply (start_v_ok t a l w b true); auto. lia.
  - rewrite turned_nth by lia. rewrite vat_inv. replace (Z.of_nat (length b) - 1 - (0 + Z.of_nat i)) with (Z.of_nat (length b - 1 - i)) by lia. apply (start_v_ok t a l w b false); auto. lia.
Qed.
Lemma plain_edges_rev : forall l, mapM (fun i => lent l i) (zdown (ZL l - 1) 0) = Ok (rev l).
Proof.
  intros l. apply mapM_ext_ok. unfold zdown. rewrite !rev_length, zrange_length. unfold ZL. lia.
  intros i d e Hi. unfold zdown in *. rewrite rev_length in Hi. rewrite rev_nth by auto. rewrite zrange_length in *. unfold ZL in *. rewrite nth_zrange by lia. unfold lent. replace (_ <? 0) with false by lia. f_equal.
  rewrite (nth_indep _ e NULL) by (rewrite rev_length; lia). rewrite rev_nth by lia. f_equal. lia.
Qed.

Lemma face_rep : forall t a f b, inv t a -> a_f a f = Some (true, Some b) -> exists x l, tfs t f = Some x /\ f_edges x = Some l /\ rep l (f_edirs x) b.
Proof.
  intros t a f b I H. destruct (inv_full _ _ _ _ I H) as (x & l & H1 & H2 & H3 & H4 & H5 & H6 & H7). exists x, l. split; auto. split; auto. subst b. apply vw_rep. auto.
Qed.
Lemma face_edges_ok : forall t a f b, inv t a -> a_f a f = Some (true, Some b) -> Forall (edge_ok a) b.
Proof. intros t a f b I H. apply (w_fe _ (i_w _ _ I) _ _ H). Qed.
Lemma use_end : forall a b dir v0, linked a b -> forall e d, In (e, d) b -> is_end a e v0 -> exists j, (j < length b)%nat /\ sv a dir b j = v0.
Proof.
  intros a b dir v0 (H1 & H2) e d Hi (u0 & u1 & He & Hv). apply (In_nth _ _ dflt) in Hi. destruct Hi as (j & Hj & Ej).
  assert (VA : vat a (nth j b dflt) = d_start (u0, u1) d) by (rewrite Ej; unfold vat; cbn; rewrite He; auto).
  assert (VE : vend a (nth j b dflt) = d_end (u0, u1) d) by (rewrite Ej; unfold vend; cbn; rewrite He; auto).
  assert (HN : forall i, (i < length b)%nat -> exists i', (i' < length b)%nat /\ vend a (nth i' b dflt) = vat a (nth i b dflt)).
  { intros i Hi. destruct i as [|i].
    - exists (length b - 1)%nat. split; [lia|]. rewrite H2 by lia. rewrite mod_S by lia. replace (S (length b - 1) =? length b)%nat with true by (symmetry; apply Nat.eqb_eq; lia). auto.
    - exists i. split; [lia|]. rewrite H2 by lia. rewrite Nat.mod_small by lia. auto. }
  assert (M : (S j mod length b < length b)%nat) by (apply Nat.mod_upper_bound; lia).
  unfold sv. destruct (Z.eq_dec (vat a (nth j b dflt)) v0) as [E|E].
  - destruct dir. exists j; auto. destruct (HN _ Hj) as (i' & A & B). exists i'. split; auto. congruence.
  - assert (E' : vend a (nth j b dflt) = v0) by (rewrite VE; rewrite VA in E; unfold d_start, d_end in *; destruct d; cbn in *; destruct Hv; congruence).
    destruct dir. exists (S j mod length b)%nat. split; auto. rewrite <- H2; auto. exists j; auto.
Qed.
Lemma hd_rot : forall a dir b k, (k < length b)%nat -> hd NULL (map (vat a) (rot (start_of dir (length b) k) (walk dir b))) = sv a dir b k.
Proof.
  intros a dir b k Hk. rewrite sv_use. transitivity (nth 0 (map (vat a) (rot (start_of dir (length b) k) (walk dir b))) NULL). { destruct (map _ _); auto. }
  rewrite (nth_indep _ NULL (vat a dflt)) by (rewrite map_length, rot_length, walk_length; lia). rewrite map_nth, walk_nth by lia. do 3 f_equal. unfold pos. destruct dir.
  - rewrite Nat.add_0_r. apply Nat.mod_small; auto.
  - rewrite Nat.sub_0_r. symmetry. apply Nat.mod_unique with (q := 1%nat); lia.
Qed.

(** MF_Vertices and MF_Edges on every closed loop, in either direction ([dir] 1
    or 0).  Without a start vertex they follow the whole walk; with a start vertex
    of the loop they follow the walk rotated to begin there; with any other
    vertex they stop with a fatal error. *)
Theorem C23_face_loop : forall t a f b u dir v0, reach t a -> a_f a f = Some (true, Some b) -> path a u b u ->
  (v0 = NULL -> exists vs, MF_Vertices t f (b2z dir) v0 = Ok vs /\ MF_Edges t f (b2z dir) v0 = Ok (map fst (walk dir b)) /\ around a vs (walk dir b)) /\
  (v0 <> NULL -> (exists e d, In (e, d) b /\ is_end a e v0) -> exists c vs, rotation (walk dir b) c /\
     MF_Vertices t f (b2z dir) v0 = Ok vs /\ MF_Edges t f (b2z dir) v0 = Ok (map fst c) /\ around a vs c /\ hd NULL vs = v0) /\
  (v0 <> NULL -> (forall e d, In (e, d) b -> ~ is_end a e v0) -> MF_Vertices t f (b2z dir) v0 = Fatal /\ MF_Edges t f (b2z dir) v0 = Fatal).
Proof.
  intros t a f b u dir v0 R Hf Hp. pose proof (reach_inv _ _ R) as I. destruct (face_rep _ _ _ _ I Hf) as (x & l & Hx & Hl & Rp). pose proof (face_edges_ok _ _ _ _ I Hf) as EO.
  pose proof (closed_linked _ _ _ Hp) as LK.
  assert (EL : ZL l = Z.of_nat (length b)) by (destruct Rp as (-> & _); unfold ZL; rewrite map_length; auto).
  split; [|split].
  - intros ->. exists (map (vat a) (walk dir b)). unfold MF_Vertices, MF_Edges, getf. rewrite Hx. cbn [bind]. rewrite Hl. cbn [bind nn]. rewrite Z.eqb_refl. split. apply plain_vertices; auto. split; [|apply linked_around, linked_walk; auto].
    destruct dir; cbn [b2z Z.eqb walk]. destruct Rp as (-> & _). auto. rewrite plain_edges_rev. destruct Rp as (-> & _). unfold turned. rewrite map_rev, map_map. auto.
  - intros Hn (e & d & Hi & He). destruct (use_end a b dir v0 LK e d Hi He) as (j & Hj & Ej).
    destruct (find_start_ok t a l (f_edirs x) b dir v0 I Rp EO 0%nat ltac:(lia)) as (o & Eo & HH). destruct o as [k|]; [|exfalso; apply (HH j); auto; lia].
    destruct HH as (k' & -> & Hk & Ek). exists (rot (start_of dir (length b) k') (walk dir b)). eexists. split; [|split; [|split; [|split]]].
    + unfold rot. eexists. eexists. split; [|reflexivity]. rewrite firstn_skipn. auto.
    + unfold MF_Vertices, getf. rewrite Hx. cbn [bind]. rewrite Hl. cbn [bind nn]. replace (v0 =? NULL) with false by (symmetry; apply Z.eqb_neq; exact Hn). change (Z.of_nat 0) with 0 in Eo. unfold dz in Eo. rewrite Eo. cbn [bind]. apply (loop_vertices t a l (f_edirs x) b dir k' I Rp EO). lia.
    + unfold MF_Edges, getf. rewrite Hx. cbn [bind]. rewrite Hl. cbn [bind nn]. replace (v0 =? NULL) with false by (symmetry; apply Z.eqb_neq; exact Hn). change (Z.of_nat 0) with 0 in Eo. unfold dz in Eo. rewrite Eo. cbn [bind]. apply (loop_edges l (f_edirs x) b dir k' Rp). lia.
    + apply linked_around. apply linked_rot. rewrite walk_length. unfold start_of. destruct dir; lia. apply linked_walk; auto.
    + rewrite hd_rot by lia. auto.
  - intros Hn HN. destruct (find_start_ok t a l (f_edirs x) b dir v0 I Rp EO 0%nat ltac:(lia)) as (o & Eo & HH). change (Z.of_nat 0) with 0 in Eo. unfold dz in Eo.
    destruct o as [k|].
    + destruct HH as (k' & -> & Hk & Ek). exfalso. destruct (nth k' b dflt) as [e d] eqn:En. assert (Hi : In (e, d) b) by (rewrite <- En; apply nth_In; lia). apply (HN e d Hi).
      rewrite Forall_forall in EO. destruct (EO _ Hi) as [[p q] Hpq]. cbn in Hpq. exists p, q. split; auto. revert Ek. unfold sv. rewrite En. unfold vat, vend. cbn. rewrite Hpq. unfold d_start, d_end. destruct dir, d; cbn; auto.
    + unfold MF_Vertices, MF_Edges, getf. rewrite Hx. cbn [bind]. rewrite Hl. cbn [bind nn]. replace (v0 =? NULL) with false by (symmetry; apply Z.eqb_neq; exact Hn). rewrite Eo. auto.
Qed.
Print Assumptions C23_face_loop.

(** ** The two directions *)
Lemma rotation_sym : forall A (x y : list A), rotation x y -> rotation y x.
Proof. intros A x y (u & v & -> & ->). exists v, u. auto. Qed.
Lemma rotation_trans : forall A (x y z : list A), rotation x y -> rotation y z -> rotation x z.
Proof.
  intros A x y z (u & v & -> & ->) (u' & v' & E & ->). apply app_eq_app in E. destruct E as (l & [(-> & ->)|(-> & ->)]).
  - exists (u ++ u'), l. rewrite <- !app_assoc. auto.
  - exists l, (v' ++ v). rewrite <- !app_assoc. auto.
Qed.
Lemma rotation_map : forall A B (g : A -> B) x y, rotation x y -> rotation (map g x) (map g y).
Proof. intros A B g x y (u & v & -> & ->). exists (map g u), (map g v). rewrite !map_app. auto. Qed.
Lemma rotation_rev : forall A (x y : list A), rotation x y -> rotation (rev x) (rev y).
Proof. intros A x y (u & v & -> & ->). exists (rev v), (rev u). rewrite !rev_app_distr. auto. Qed.
Lemma rotation_perm : forall A (x y : list A), rotation x y -> Permutation x y.
Proof. intros A x y (u & v & -> & ->). apply Permutation_app_comm. Qed.
Lemma rotation_unique : forall (y z : list ptr), rotation y z -> NoDup y -> hd NULL y = hd NULL z -> y = z.
Proof.
  intros y z (u & v & -> & ->) N H. destruct u as [|p u]. rewrite app_nil_r; auto. destruct v as [|q v]. rewrite app_nil_r; auto. cbn in H. subst q. exfalso. apply nd_app in N. destruct N as (_ & _ & N). apply (N p); cbn; auto.
Qed.
Lemma vend_shift : forall a b, linked a b -> b <> [] -> map (vend a) b = tl (map (vat a) b) ++ [hd NULL (map (vat a) b)].
Proof.
  intros a b (_ & H) HN. apply (list_ext _ NULL). { destruct b; [congruence|]. cbn [map tl hd length]. rewrite app_length. cbn [length]. rewrite !map_length. lia. }
  rewrite map_length. intros i Hi. rewrite (nth_indep _ NULL (vend a dflt)) by (rewrite map_length; auto). rewrite map_nth, H, mod_S by auto. destruct b as [|x b]; [congruence|]. cbn [map tl hd length] in *.
  rewrite nth_app_if, map_length. destruct (Nat.eqb_spec (S i) (S (length b))) as [E|E].
  - replace (i <? length b)%nat with false by (symmetry; apply Nat.ltb_ge; lia). replace (i - length b)%nat with 0%nat by lia. auto.
  - replace (i <? length b)%nat with true by (symmetry; apply Nat.ltb_lt; lia). cbn [nth]. rewrite (nth_indep (map _ _) NULL (vat a dflt)) by (rewrite map_length; lia). rewrite map_nth. auto.
Qed.
Lemma vat_turned : forall a b, map (vat a) (turned b) = rev (map (vend a) b).
Proof. intros. unfold turned. rewrite map_rev, map_map. f_equal. apply map_ext. intros x. apply vat_inv. Qed.
Lemma stops_vend : forall a b, stops a b = map (vend a) b.
Proof. induction b as [|[e d] b IH]; cbn; auto. rewrite IH. auto. Qed.
Lemma around_vat : forall a vs c, around a vs c -> vs = map (vat a) c.
Proof.
  intros a vs c (L & H). apply (list_ext _ NULL). rewrite map_length; auto. intros i Hi. rewrite (nth_indep (map _ _) NULL (vat a dflt)) by (rewrite map_length; lia). rewrite map_nth.
  rewrite L in Hi. pose proof (nth_error_nth' c dflt Hi) as E. destruct (nth i c dflt) as [e d]. destruct (H i e d E) as (x & v & w & Hx & Hv & _ & Hs & _). rewrite (nth_error_nth _ _ NULL Hv). unfold vat. cbn. rewrite Hx. auto.
Qed.
Theorem C23_directions_reversed : forall t a f b u v0 vs1 vs0, reach t a -> a_f a f = Some (true, Some b) -> path a u b u -> b <> [] ->
  MF_Vertices t f 1 v0 = Ok vs1 -> MF_Vertices t f 0 v0 = Ok vs0 ->
  rotation (rev vs1) vs0 /\ (v0 = NULL \/ NoDup (stops a b) -> vs0 = hd NULL vs1 :: rev (tl vs1)).
Proof.
  intros t a f b u v0 vs1 vs0 R Hf Hp HN E1 E0. pose proof (closed_linked _ _ _ Hp) as LK.
  destruct (C23_face_loop t a f b u true v0 R Hf Hp) as (A1 & B1 & C1). destruct (C23_face_loop t a f b u false v0 R Hf Hp) as (A0 & B0 & C0). cbn [b2z walk] in *.
  assert (Base : map (vat a) (turned b) = hd NULL (map (vat a) b) :: rev (tl (map (vat a) b))). { rewrite vat_turned, vend_shift by auto. rewrite rev_app_distr. auto. }
  assert (Base2 : rotation (rev (map (vat a) b)) (map (vat a) (turned b))).
  { rewrite Base. destruct b as [|x b]; [congruence|]. cbn [map hd tl rev]. exists (rev (map (vat a) b)), [vat a x]. auto. }
  destruct (Z.eq_dec v0 NULL) as [En|En].
  - destruct (A1 En) as (w1 & F1 & _ & G1). destruct (A0 En) as (w0 & F0 & _ & G0). rewrite E1 in F1. rewrite E0 in F0. inversion F1; subst w1. inversion F0; subst w0.
    apply around_vat in G1. apply around_vat in G0. subst vs1 vs0. split; auto.
  - assert (Hex : exists e d, In (e, d) b /\ is_end a e v0).
    { destruct (Exists_dec (fun x => is_end a (fst x) v0) b) as [D|D].
      - intros [e d]. unfold is_end. cbn. destruct (a_e a e) as [[[] [p q]]|]; [|right; intros (?&?&?&_); discriminate|right; intros (?&?&?&_); discriminate].
        destruct (Z.eq_dec p v0), (Z.eq_dec q v0); [left|left|left|right]; try (exists p, q; split; auto; fail). intros (p' & q' & Eq & [?|?]); inversion Eq; subst; congruence.
      - apply Exists_exists in D. destruct D as ([e d] & Hi & He). exists e, d. auto.
      - exfalso. destruct C1 as [C1 _]; auto. intros e d Hi He. apply D. apply Exists_exists. exists (e, d). auto. congruence. }
    destruct (B1 En Hex) as (c1 & w1 & R1 & F1 & _ & G1 & H1). destruct (B0 En Hex) as (c0 & w0 & R0 & F0 & _ & G0 & H0). rewrite E1 in F1. rewrite E0 in F0. inversion F1; subst w1. inversion F0; subst w0.
    apply around_vat in G1. apply around_vat in G0.
    assert (RR : rotation (rev vs1) vs0).
    { subst vs1 vs0. eapply rotation_trans. apply rotation_rev. apply rotation_map. apply rotation_sym. exact R1. eapply rotation_trans. exact Base2. apply rotation_map. exact R0. }
    split; auto. intros [?|ND]; [congruence|].
    assert (ND1 : NoDup vs1). { subst vs1. eapply Permutation_NoDup; [|exact ND]. rewrite stops_vend. transitivity (map (vat a) b). rewrite vend_shift by auto. destruct b; [congruence|]. cbn. symmetry. apply Permutation_cons_append. apply rotation_perm, rotation_map; auto. }
    symmetry. destruct vs1 as [|p vs1]. { exfalso. assert (length (map (vat a) c1) = 0%nat) by (rewrite <- G1; auto). rewrite map_length in H. destruct R1 as (y & z & Eb & Ec). destruct c1; [|discriminate]. apply (f_equal (@length _)) in Eb, Ec. rewrite app_length in *. cbn in Ec. destruct b; [congruence|cbn in Eb; lia]. }
    cbn [hd tl] in *. apply rotation_unique; [|inversion ND1; subst; constructor; [rewrite <- in_rev; auto|apply NoDup_rev; auto]|cbn; congruence].
    apply rotation_trans with (y := rev (p :: vs1)); auto. cbn. exists [p], (rev vs1). auto.
Qed.
Print Assumptions C23_directions_reversed.
Lemma T1_reach : reach T1 (arun amesh0 hexagon).
Proof.
  assert (H : tallowed amesh0 hexagon) by (apply tallowedb_ok with (t := empty_topo); [exact inv0|vm_compute; reflexivity]).
  destruct (trun_ok hexagon _ _ inv0 H) as (t & E & I). exists hexagon. split; [exact H|]. split; [unfold T1; rewrite E; reflexivity|reflexivity].
Qed.
Example C23_face_loop_ex : exists t a f b u, reach t a /\ a_f a f = Some (true, Some b) /\ path a u b u /\ NoDup (stops a b) /\ length b = 6%nat /\
  MF_Vertices t f 1 5 = Ok [5; 6; 1; 2; 3; 4] /\ MF_Vertices t f 0 5 = Ok [5; 4; 3; 2; 1; 6].
Proof.
  exists T1, (arun amesh0 hexagon), 14. eexists. exists 1. split. exact T1_reach. split. vm_compute. reflexivity. split. { vm_compute. repeat (eexists; split; [reflexivity|split; [discriminate|split; [reflexivity|]]]). reflexivity. }
  split. { vm_compute. repeat constructor; cbn; intros HH; repeat destruct HH as [HH|HH]; try discriminate; auto. }
  split. reflexivity. split; vm_compute; reflexivity.
Qed.

(** MF_UsesVertex looks at all edges but the last; on a closed loop that is enough. *)
Lemma uses_fold : forall t a v l, inv t a -> Forall (live_e a) l ->
  forall s, exists r, foldM (fun b e => if b : bool then Ok true else ME_UsesVertex t e v) s l = Ok r /\ (r = true <-> s = true \/ exists e, In e l /\ is_end a e v).
Proof.
  intros t a v l I. induction l as [|e l IH]; intros H s.
  - exists s. split; auto. split; auto. intros [|(e & [] & _)]; auto.
  - inversion H as [|? ? [x He] HL]; subst. cbn [foldM]. assert (E : (if s then Ok true else ME_UsesVertex t e v) = Ok (s || ((fst x =? v) || (snd x =? v)))).
    { destruct s; auto. apply (ev_uses t a e x v I He). } rewrite E. cbn [bind]. destruct (IH HL (s || ((fst x =? v) || (snd x =? v)))) as (r & Er & Hr). exists r. split; auto. rewrite Hr. destruct x as [p q]. cbn [fst snd]. split.
    + intros [HH|(e' & Hi & He')]; [|right; exists e'; split; [right|]; auto]. destruct s; auto. right. exists e. split; [left; auto|]. exists p, q. split; auto. cbn in HH. lia.
    + intros [->|(e' & [<-|Hi] & He')]; auto. left. destruct He' as (p' & q' & E' & HH). rewrite He in E'. inversion E'; subst. destruct s; cbn; auto. lia. right. eauto.
Qed.
Theorem C23_uses_vertex : forall t a f b u v, reach t a -> a_f a f = Some (true, Some b) -> path a u b u ->
  exists r, MF_UsesVertex t f v = Ok r /\ (r = true <-> exists e d, In (e, d) b /\ is_end a e v).
Proof.
  intros t a f b u v R Hf Hp. pose proof (reach_inv _ _ R) as I. destruct (face_rep _ _ _ _ I Hf) as (x & l & Hx & Hl & Rp). pose proof (closed_linked _ _ _ Hp) as LK.
  assert (El : l = map fst b) by (destruct Rp as (-> & _); auto). pose proof (face_edges_ok _ _ _ _ I Hf) as EO.
  assert (FL : Forall (live_e a) l). { subst l. apply Forall_map. eapply Forall_impl; [|exact EO]. intros [e d] [p Hp']. exists p. auto. }
  destruct (uses_fold t a v (firstn (length l - 1) l) I) with (s := false) as (r & Er & Hr). { rewrite <- (firstn_skipn (length l - 1) l) in FL. apply Forall_app in FL. tauto. }
  exists r. split. { unfold MF_UsesVertex, getf. rewrite Hx. cbn [bind]. rewrite Hl. auto. }
  rewrite Hr. split.
  - intros [|(e & Hi & He)]; [discriminate|]. assert (Hi' : In e l) by (rewrite <- (firstn_skipn (length l - 1) l); apply in_app_iff; auto). subst l. apply in_map_iff in Hi'. destruct Hi' as ([e' d] & Eq & Hi'). cbn in Eq. subst e'. eauto.
  - intros (e & d & Hi & He). right.
    destruct b as [|y b0] eqn:Eb; [destruct Hi|]. destruct b0 as [|y' b0].
    { exfalso. cbn in Hp. destruct y as [e0 d0]. destruct Hp as (z & _ & Hz & Hz1 & Hz2). unfold d_start, d_end in *. destruct d0; congruence. }
    rewrite <- Eb in *. assert (Lb : (2 <= length b)%nat) by (rewrite Eb; cbn; lia).
    assert (G : exists j, (j < length b - 1)%nat /\ (vat a (nth j b dflt) = v \/ vend a (nth j b dflt) = v)).
    { destruct (use_end a b true v LK e d Hi He) as (j & Hj & Ej). cbn in Ej. destruct (Nat.eq_dec j (length b - 1)) as [->|]; [|exists j; split; auto; lia].
      exists (length b - 2)%nat. split; [lia|]. right. destruct LK as [_ LK]. rewrite LK by lia. rewrite Nat.mod_small by lia. replace (S (length b - 2)) with (length b - 1)%nat by lia. auto. }
    destruct G as (j & Hj & Ej). exists (fst (nth j b dflt)). split.
    + subst l. rewrite map_length. rewrite <- (map_nth fst). replace (nth j (map fst b) (fst dflt)) with (nth j (firstn (length b - 1) (map fst b)) (fst dflt)) by (apply nth_firstn_lt; auto). apply nth_In. rewrite firstn_length, map_length. lia.
    + rewrite Forall_forall in EO. destruct (EO (nth j b dflt)) as [[p q] Hpq]. apply nth_In. lia. exists p, q. split; auto. unfold vat, vend in Ej. rewrite Hpq in Ej. unfold d_start, d_end in Ej. cbn in Ej. destruct (snd (nth j b dflt)), Ej; auto.
Qed.
Print Assumptions C23_uses_vertex.
Example C23_uses_vertex_ex : exists b, reach T1 (arun amesh0 hexagon) /\ a_f (arun amesh0 hexagon) 14 = Some (true, Some b) /\ path (arun amesh0 hexagon) 1 b 1 /\
  MF_UsesVertex T1 14 6 = Ok true /\ MF_UsesVertex T1 14 7 = Ok false.
Proof.
  eexists. split. exact T1_reach. split. vm_compute. reflexivity. split. { vm_compute. repeat (eexists; split; [reflexivity|split; [discriminate|split; [reflexivity|]]]). reflexivity. }
  split; vm_compute; reflexivity.
Qed.

(** * C26 *)

(** What a query that returns NULL for "none" must answer, and what a query that
    always returns a list must answer. *)
Definition answers (o : option (list ptr)) (P : ptr -> Prop) : Prop :=
  match o with None => forall x, ~ P x | Some l => l <> [] /\ NoDup l /\ forall x, In x l <-> P x end.
Definition lists (l : list ptr) (P : ptr -> Prop) : Prop := NoDup l /\ forall x, In x l <-> P x.

(** Incidence over several levels. *)
Definition v_face a v f := exists e, is_end a e v /\ has_edge a f e.
Definition e_region a e r := exists f d, has_edge a f e /\ has_face a r f d.
Definition v_region a v r := exists e, is_end a e v /\ e_region a e r.
Definition r_edge a r e := e_region a e r.
Definition r_vertex a r v := v_region a v r.

Lemma lists_answers : forall l P, lists l P -> answers (match l with [] => None | _ => Some l end) P.
Proof. intros [|x l] P (N & H); cbn. intros x Hx. apply H in Hx. destruct Hx. split; [discriminate|]. split; auto. Qed.
Lemma fold_chkn : forall fs acc, NoDup acc -> lists (fold_left chkn fs acc) (fun x => In x acc \/ In x fs).
Proof.
  induction fs as [|f fs IH]; intros acc N; cbn [fold_left].
  - split; auto. intros x. cbn. tauto.
  - destruct (IH (chkn acc f) (chkn_NoDup _ _ N)) as (N' & H). split; auto. intros x. rewrite H, chkn_In. cbn. intuition.
Qed.
Lemma lists_ext : forall l P Q, lists l P -> (forall x, P x <-> Q x) -> lists l Q.
Proof. intros l P Q (N & H) E. split; auto. intros x. rewrite H. auto. Qed.

Theorem C26_vertex_edges : forall t a v, reach t a -> a_v a v <> None -> exists o, MV_Edges t v = Ok o /\ answers o (fun e => is_end a e v).
Proof.
  intros t a v R Hv. pose proof (reach_inv _ _ R) as I. destruct (get_v t a v I Hv) as (x & Hx & _). destruct (i_uv _ _ I _ _ Hx) as (N & H).
  eexists. split. unfold MV_Edges, getv. rewrite Hx. reflexivity. destruct (v_edges x) eqn:E; cbn. intros e He. apply H in He. auto. split; [discriminate|auto].
Qed.
Theorem C26_edge_faces : forall t a e, reach t a -> a_e a e <> None -> exists o, ME_Faces t e = Ok o /\ answers o (fun f => has_edge a f e).
Proof.
  intros t a e R He. pose proof (reach_inv _ _ R) as I. destruct (get_e t a e I He) as (x & Hx & _). destruct (i_ue _ _ I _ _ Hx) as (N & H).
  eexists. split. unfold ME_Faces, gete. rewrite Hx. reflexivity. destruct (e_faces x) eqn:E; cbn. intros f Hf. apply H in Hf. auto. split; [discriminate|auto].
Qed.
(** Loop over the edges of a vertex collecting something from each. *)
Lemma collect : forall (g : list ptr -> ptr -> result (list ptr)) (Q : ptr -> ptr -> Prop) es acc,
  (forall acc e, NoDup acc -> In e es -> exists acc', g acc e = Ok acc' /\ lists acc' (fun x => In x acc \/ Q e x)) -> NoDup acc ->
  exists l, foldM g acc es = Ok l /\ lists l (fun x => In x acc \/ exists e, In e es /\ Q e x).
Proof.
  intros g Q. induction es as [|e es IH]; intros acc H N; cbn [foldM].
  - exists acc. split; auto. split; auto. intros x. split; auto. intros [|(e & [] & _)]; auto.
  - destruct (H acc e N (or_introl eq_refl)) as (acc1 & E1 & L1). rewrite E1. cbn [bind]. destruct (IH acc1) as (l & El & Ll). intros; apply H; auto. right; auto. apply L1.
    exists l. split; auto. eapply lists_ext. exact Ll. intros x. cbv beta. destruct L1 as (_ & L1). rewrite L1. split.
    + intros [[|]|(e' & Hi & Hq)]; auto; right; [exists e|exists e']; split; cbn; auto.
    + intros [|(e' & [<-|Hi] & Hq)]; auto. right. eauto.
Qed.
Theorem C26_vertex_faces : forall t a v, reach t a -> a_v a v <> None -> exists o, MV_Faces t v = Ok o /\ answers o (v_face a v).
Proof.
  intros t a v R Hv. pose proof (reach_inv _ _ R) as I. destruct (get_v t a v I Hv) as (x & Hx & _). destruct (i_uv _ _ I _ _ Hx) as (N & H).
  destruct (collect (fun acc e => o <- ME_Faces t e ;; Ok (match o with None => acc | Some fs => fold_left chkn fs acc end)) (fun e f => has_edge a f e) (v_edges x) []) as (l & El & Ll).
  - intros acc e Na He. destruct (C26_edge_faces t a e R) as (o & Eo & Ao). { apply H in He. destruct He as (p & q & E & _). congruence. }
    rewrite Eo. cbn [bind]. eexists. split; [reflexivity|]. destruct o as [fs|]; cbn in Ao.
    + destruct Ao as (_ & Nf & Hf). eapply lists_ext. apply fold_chkn; auto. intros f. cbv beta. rewrite Hf. tauto.
    + split; auto. intros f. split; auto. intros [|HH]; auto. destruct (Ao _ HH).
  - constructor.
  - eexists. split. unfold MV_Faces, getv. rewrite Hx. cbn [bind]. rewrite El. reflexivity. apply lists_answers. eapply lists_ext. exact Ll. intros f. cbv beta. unfold v_face. split.
    + intros [[]|(e & He & Hf)]. exists e. split; auto. apply H. auto.
    + intros (e & He & Hf). right. exists e. split; auto. apply H. auto.
Qed.
Lemma add_fregs_ok : forall t a acc f, inv t a -> a_f a f <> None -> NoDup acc -> exists acc', add_fregs t acc f = Ok acc' /\ lists acc' (fun r => In r acc \/ exists d, has_face a r f d).
Proof.
  intros t a acc f I Hf N. destruct (get_f t a f I Hf) as (x & Hx & _). pose proof (i_uf _ _ I _ _ Hx) as U. unfold add_fregs, MF_Region, getf. rewrite Hx. cbn [bind Z.eqb].
  assert (NN : forall r d, has_face a r f d -> r <> NULL) by (intros r d (b & Hb & _); apply (r_nonnull _ _ _ I); congruence).
  set (acc1 := if f_r0 x =? NULL then acc else chkn acc (f_r0 x)).
  assert (L1 : lists acc1 (fun r => In r acc \/ has_face a r f true)).
  { unfold acc1. destruct (Z.eqb_spec (f_r0 x) NULL) as [E|E].
    - split; auto. intros r. split; auto. intros [|HH]; auto. pose proof (NN _ _ HH) as Nr. apply (U r Nr) in HH. congruence.
    - split. apply chkn_NoDup; auto. intros r. rewrite chkn_In. split; intros [HH|HH]; auto.
      + subst r. right. apply (U _ E). auto.
      + right. symmetry. apply (U _ (NN _ _ HH)). auto. }
  eexists. split. reflexivity. destruct L1 as (N1 & L1). destruct (Z.eqb_spec (f_r1 x) NULL) as [E|E].
  - split; auto. intros r. rewrite L1. split.
    + intros [|HH]; auto. right. exists true. auto.
    + intros [|([] & HH)]; auto. pose proof (NN _ _ HH) as Nr. apply (U r Nr) in HH. congruence.
  - split. apply chkn_NoDup; auto. intros r. rewrite chkn_In, L1. split.
    + intros [[|HH]|HH]; auto; right. exists true; auto. subst r. exists false. apply (U _ E). auto.
    + intros [|([] & HH)]; auto. right. symmetry. apply (U _ (NN _ _ HH)). auto.
Qed.
Lemma has_edge_some : forall a f e, has_edge a f e -> a_f a f <> None.
Proof. intros a f e (b & Hb & _). congruence. Qed.
Theorem C26_edge_regions : forall t a e, reach t a -> a_e a e <> None -> exists o, ME_Regions t e = Ok o /\ answers o (e_region a e).
Proof.
  intros t a e R He. pose proof (reach_inv _ _ R) as I. destruct (get_e t a e I He) as (x & Hx & _). destruct (i_ue _ _ I _ _ Hx) as (N & H).
  destruct (collect (add_fregs t) (fun f r => exists d, has_face a r f d) (e_faces x) []) as (l & El & Ll).
  - intros acc f Na Hf. apply add_fregs_ok; auto. apply H in Hf. eapply has_edge_some; eauto.
  - constructor.
  - eexists. split. unfold ME_Regions, gete. rewrite Hx. cbn [bind]. rewrite El. reflexivity. apply lists_answers. eapply lists_ext. exact Ll. intros r. cbv beta. unfold e_region. split.
    + intros [[]|(f & Hf & d & HH)]. exists f, d. split; auto. apply H; auto.
    + intros (f & d & Hf & HH). right. exists f. split; eauto. apply H; auto.
Qed.
Theorem C26_vertex_regions : forall t a v, reach t a -> a_v a v <> None -> exists o, MV_Regions t v = Ok o /\ answers o (v_region a v).
Proof.
  intros t a v R Hv. pose proof (reach_inv _ _ R) as I. destruct (get_v t a v I Hv) as (x & Hx & _). destruct (i_uv _ _ I _ _ Hx) as (N & H).
  destruct (collect (fun acc e => o <- ME_Faces t e ;; match o with None => Ok acc | Some fs => foldM (add_fregs t) acc fs end) (fun e r => e_region a e r) (v_edges x) []) as (l & El & Ll).
  - intros acc e Na He. destruct (C26_edge_faces t a e R) as (o & Eo & Ao). { apply H in He. destruct He as (p & q & E & _). congruence. }
    rewrite Eo. cbn [bind]. destruct o as [fs|]; cbn in Ao.
    + destruct Ao as (_ & Nf & Hf). destruct (collect (add_fregs t) (fun f r => exists d, has_face a r f d) fs acc) as (l & El & Ll); auto.
      { intros acc' f Na' Hf'. apply add_fregs_ok; auto. apply Hf in Hf'. eapply has_edge_some; eauto. }
      exists l. split; auto. eapply lists_ext. exact Ll. intros r. cbv beta. unfold e_region. split.
      * intros [|(f & H1 & d & H2)]; auto. right. exists f, d. split; auto. apply Hf; auto.
      * intros [|(f & d & H1 & H2)]; auto. right. exists f. split; eauto. apply Hf; auto.
    + exists acc. split; auto. split; auto. intros r. split; auto. intros [|(f & d & H1 & H2)]; auto. destruct (Ao _ H1).
  - constructor.
  - eexists. split. unfold MV_Regions, getv. rewrite Hx. cbn [bind]. rewrite El. reflexivity. apply lists_answers. eapply lists_ext. exact Ll. intros r. cbv beta. unfold v_region. split.
    + intros [[]|(e & He & Hf)]. exists e. split; auto. apply H. auto.
    + intros (e & He & Hf). right. exists e. split; auto. apply H. auto.
Qed.
Print Assumptions C26_vertex_edges.
Print Assumptions C26_edge_faces.
Print Assumptions C26_vertex_faces.
Print Assumptions C26_edge_regions.
Print Assumptions C26_vertex_regions.
Example C26_queries_ex : exists a, reach T0 a /\ a_v a 2 <> None /\ a_e a 9 <> None /\ MV_Regions T0 2 = Ok (Some [22; 23]) /\ ME_Regions T0 9 = Ok (Some [22; 23]) /\ ME_Regions T0 6 = Ok (Some [22]).
Proof. exists (arun amesh0 tets). split. exact T0_reach. split. vm_compute. discriminate. split. vm_compute. discriminate. split; [|split]; vm_compute; reflexivity. Qed.

(** Regions of a face and neighbours of a region. *)
Theorem C26_face_regions : forall t a f, reach t a -> a_f a f <> None -> exists l, MF_Regions t f = Ok l /\ lists l (fun r => exists d, has_face a r f d).
Proof.
  intros t a f R Hf. pose proof (reach_inv _ _ R) as I. destruct (get_f t a f I Hf) as (x & Hx & _). pose proof (i_uf _ _ I _ _ Hx) as U.
  assert (NN : forall r d, has_face a r f d -> r <> NULL) by (intros r d (b & Hb & _); apply (r_nonnull _ _ _ I); congruence).
  eexists. split. unfold MF_Regions, getf. rewrite Hx. reflexivity. split.
  - destruct (Z.eqb_spec (f_r0 x) NULL) as [E0|E0], (Z.eqb_spec (f_r1 x) NULL) as [E1|E1]; cbn; repeat constructor; cbn; try tauto.
    intros [E|[]]. assert (H0 : has_face a (f_r0 x) f true) by (apply (U _ E0); auto). assert (H1 : has_face a (f_r0 x) f false) by (apply (U _ E0); auto).
    destruct H0 as (b & Hb & Hi0). destruct H1 as (b' & Hb' & Hi1). rewrite Hb in Hb'. inversion Hb'; subst b'. destruct (w_rnd _ (i_w _ _ I) _ _ _ Hb) as (ND & _). apply (slot_one b f ND). auto.
  - intros r. rewrite in_app_iff. split.
    + intros [H|H].
      * destruct (Z.eqb_spec (f_r0 x) NULL) as [E|E]; [destruct H|]. destruct H as [<-|[]]. exists true. apply (U _ E). auto.
      * destruct (Z.eqb_spec (f_r1 x) NULL) as [E|E]; [destruct H|]. destruct H as [<-|[]]. exists false. apply (U _ E). auto.
    + intros (d & H). pose proof (NN _ _ H) as Nr. destruct d; [left|right]; apply (U _ Nr) in H; rewrite H; (destruct (Z.eqb_spec r NULL); [congruence|cbn; auto]).
Qed.
Theorem C26_region_neighbours : forall t a r b, reach t a -> a_r a r = Some (true, Some b) ->
  exists l, MR_AdjRegions t r = Ok l /\ forall q, In q l <-> exists f d, has_face a r f d /\ has_face a q f (negb d).
Proof.
  intros t a r b R Hr. pose proof (reach_inv _ _ R) as I. destruct (inv_rfull _ _ _ _ _ I Hr) as (x & l & Hx & _ & Hl & Eb & _).
  unfold MR_AdjRegions, getr. rewrite Hx. cbn [bind]. rewrite Hl. cbn [bind nn].
  assert (Nr : r <> NULL) by (apply (r_nonnull _ _ _ I); congruence). pose proof (i_w _ _ I) as W. destruct (w_rnd _ W _ _ _ Hr) as (ND & _).
  assert (G : forall fs acc, (forall f, In f fs -> In f l) -> exists l', foldM (fun acc f => a0 <- MF_Region t f 0 ;;
      if a0 =? NULL then Ok acc else if a0 =? r then b0 <- MF_Region t f 1 ;; Ok (if b0 =? NULL then acc else acc ++ [b0]) else Ok (acc ++ [a0])) acc fs = Ok l' /\
      forall q, In q l' <-> In q acc \/ exists f d, In f fs /\ has_face a r f d /\ has_face a q f (negb d)).
  { induction fs as [|f fs IH]; intros acc Hfs; cbn [foldM].
    - exists acc. split; auto. intros q. split; auto. intros [|(f & d & [] & _)]; auto.
    - assert (Hf : In f (map fst b)) by (destruct Eb as (Eb & _); rewrite <- Eb; apply Hfs; cbn; auto). pose proof (full_in _ _ _ (w_rf _ W _ _ Hr) Hf) as FF. destruct (full_some _ _ _ I FF) as [z Hz]. pose proof (i_uf _ _ I _ _ Hz) as U.
      apply in_map_iff in Hf. destruct Hf as ([f' d] & Ef & Hd). cbn in Ef. subst f'.
      assert (HF : has_face a r f d) by (exists b; auto). assert (HU : forall d', has_face a r f d' -> d' = d). { intros d' (b' & Hb' & Hd'). rewrite Hr in Hb'. inversion Hb'; subst b'. destruct d, d'; auto; exfalso; apply (slot_one b f ND); auto. }
      assert (S0 : f_r0 z = r <-> d = true). { rewrite (proj1 (U r Nr)). split; intros HH. symmetry. apply HU; auto. subst d. auto. }
      assert (S1 : f_r1 z = r <-> d = false). { rewrite (proj2 (U r Nr)). split; intros HH. symmetry. apply HU; auto. subst d. auto. }
      assert (NN : forall q d, has_face a q f d -> q <> NULL) by (intros q d' (b' & Hb' & _); apply (r_nonnull _ _ _ I); congruence).
      assert (ST : forall acc, exists acc', (a0 <- MF_Region t f 0 ;; if a0 =? NULL then Ok acc else if a0 =? r then b0 <- MF_Region t f 1 ;; Ok (if b0 =? NULL then acc else acc ++ [b0]) else Ok (acc ++ [a0])) = Ok acc' /\
        forall q, In q acc' <-> In q acc \/ has_face a q f (negb d)).
      { clear acc. intros acc. unfold MF_Region, getf. rewrite Hz. cbn [bind Z.eqb]. destruct (Z.eqb_spec (f_r0 z) NULL) as [E0|E0].
        - exists acc. split; auto. intros q. split; auto. intros [|HH]; auto. pose proof (NN _ _ HH) as Nq. destruct d; cbn in HH. exfalso. destruct S0 as [_ S0]. rewrite S0 in E0; auto. apply (U _ Nq) in HH. congruence.
        - destruct (Z.eqb_spec (f_r0 z) r) as [E1|E1].
          + apply S0 in E1. subst d. cbn [negb]. eexists. split; [reflexivity|]. intros q. destruct (Z.eqb_spec (f_r1 z) NULL) as [E2|E2].
            * split; auto. intros [|HH]; auto. pose proof (NN _ _ HH) as Nq. apply (U _ Nq) in HH. congruence.
            * rewrite in_app_iff. cbn. split; intros [|HH]; auto. destruct HH as [<-|[]]. right. apply (U _ E2). auto. pose proof (NN _ _ HH) as Nq. apply (U _ Nq) in HH. auto.
          + assert (d = false) by (destruct d; auto; exfalso; apply E1, S0; auto). subst d. cbn [negb]. eexists. split; [reflexivity|]. intros q. rewrite in_app_iff. cbn. split; intros [|HH]; auto.
            destruct HH as [<-|[]]. right. apply (U _ E0). auto. pose proof (NN _ _ HH) as Nq. apply (U _ Nq) in HH. auto. }
      destruct (ST acc) as (acc1 & E1 & H1). rewrite E1. cbn [bind]. destruct (IH acc1) as (l' & El' & Hl'). intros; apply Hfs; right; auto. exists l'. split; auto. intros q. rewrite Hl', H1. split.
      + intros [[|HH]|(g & d' & Hg & HH)]; auto; right. exists f, d. split; [left; auto|auto]. exists g, d'. split; [right; auto|auto].
      + intros [|(g & d' & [<-|Hg] & HH & HH')]; auto. left. right. rewrite <- (HU _ HH). auto. right. exists g, d'. auto. }
  destruct (G l [] ltac:(auto)) as (l' & El' & Hl'). exists l'. split; auto. intros q. rewrite Hl'. split.
  - intros [[]|(f & d & _ & H1 & H2)]. eauto.
  - intros (f & d & H1 & H2). right. exists f, d. split; auto. destruct H1 as (b' & Hb' & Hi). rewrite Hr in Hb'. inversion Hb'; subst b'. destruct Eb as (-> & _). apply in_map_iff. exists (f, d). auto.
Qed.
Print Assumptions C26_face_regions.
Print Assumptions C26_region_neighbours.
Example C26_region_neighbours_ex : exists a b, reach T0 a /\ a_r a 22 = Some (true, Some b) /\ MR_AdjRegions T0 22 = Ok [23].
Proof. exists (arun amesh0 tets). eexists. split. exact T0_reach. split; vm_compute; reflexivity. Qed.

(** ** Edges and vertices of general polyhedra *)

(** Each edge of the last face lies on another face of the region. *)
Definition last_shared a (b : list (ptr * bool)) : Prop :=
  forall g e, (2 <= length b)%nat -> last (map fst b) NULL = g -> has_edge a g e -> exists f, In f (removelast (map fst b)) /\ has_edge a f e.
Lemma mid_range : forall A (l : list A) d k, (k < length l)%nat -> (In k (seq 1 (length l - 2)) \/ k = 0%nat \/ k = (length l - 1)%nat) /\ In (nth k l d) l.
Proof. intros A l d k H. split. rewrite in_seq. lia. apply nth_In. auto. Qed.
Lemma poly_collect_ok : forall (q : ptr -> Z -> result (list ptr)) (Q : ptr -> ptr -> Prop) l fdir,
  l <> [] -> (fdir = 0 \/ fdir = 1) -> (forall f dir, In f l -> (dir = 0 \/ dir = 1) -> exists es, q f dir = Ok es /\ forall x, In x es <-> Q f x) ->
  (forall f dir es, In f l -> (dir = 0 \/ dir = 1) -> q f dir = Ok es -> NoDup es) ->
  (forall x, (2 <= length l)%nat -> Q (last l NULL) x -> exists f, In f (removelast l) /\ Q f x) ->
  exists r, poly_collect q l fdir = Ok r /\ lists r (fun x => exists f, In f l /\ Q f x).
Proof.
  intros q Q l fdir HN Hd Hq Hnd Hl. destruct l as [|f0 l]; [congruence|]. unfold poly_collect. change (lent (f0 :: l) 0) with (Ok f0). cbn [bind].
  assert (Hd' : lnot fdir = 0 \/ lnot fdir = 1) by (destruct Hd as [->| ->]; cbn; auto).
  destruct (Hq f0 (lnot fdir)) as (es0 & E0 & H0); auto. cbn; auto. rewrite E0. cbn [bind].
  destruct (collect (fun acc i => f <- lent (f0 :: l) i ;; es <- q f 1 ;; Ok (fold_left chkn es acc)) (fun i x => Q (nth (Z.to_nat i) (f0 :: l) NULL) x) (zrange 1 (ZL (f0 :: l) - 1)) es0) as (r & Er & Lr).
  - intros acc i Na Hi. apply zrange_in in Hi. assert (Hin : In (nth (Z.to_nat i) (f0 :: l) NULL) (f0 :: l)). { apply nth_In. unfold ZL in Hi. lia. }
    unfold lent. replace (i <? 0) with false by lia. cbn [bind]. destruct (Hq _ 1 Hin) as (es & Es & Hs). auto. rewrite Es. cbn [bind]. eexists. split; [reflexivity|]. eapply lists_ext. apply fold_chkn; auto. intros x. cbv beta. rewrite Hs. tauto.
  - eapply (Hnd f0); eauto. cbn; auto.
  - exists r. split; auto. eapply lists_ext. exact Lr. intros x. cbv beta. rewrite H0. split.
    + intros [H|(i & Hi & H)]. exists f0. split; cbn; auto. eexists. split; [|exact H]. apply zrange_in in Hi. apply nth_In. unfold ZL in Hi. lia.
    + assert (Main : forall f, In f (removelast (f0 :: l)) -> Q f x -> Q f0 x \/ exists e, In e (zrange 1 (ZL (f0 :: l) - 1)) /\ Q (nth (Z.to_nat e) (f0 :: l) NULL) x).
      { intros f Hf HQ. apply (In_nth _ _ NULL) in Hf. destruct Hf as (k & Hk & Ek). assert (LR : length (removelast (f0 :: l)) = length l). { rewrite removelast_firstn_len, firstn_length. cbn. lia. }
        assert (Ek' : nth k (f0 :: l) NULL = f). { rewrite <- Ek. rewrite removelast_firstn_len. rewrite nth_firstn_lt; auto. rewrite LR in Hk. cbn. lia. } rewrite LR in Hk.
        destruct k as [|k]. left. cbn [nth] in Ek'. rewrite Ek'. exact HQ. right. exists (Z.of_nat (S k)). split. apply in_zrange. unfold ZL. cbn [length]. lia. rewrite Nat2Z.id, Ek'. auto. }
      intros (f & Hf & HQ). rewrite (app_removelast_last NULL) in Hf by congruence. apply in_app_iff in Hf. destruct Hf as [Hf|[Ef|[]]]. eapply Main; eauto.
      destruct l as [|f1 l]. { left. cbn in Ef. subst. auto. } destruct (Hl x) as (f' & Hf' & HQ'). cbn; lia. rewrite Ef. auto. eapply Main; eauto.
Qed.
Lemma face_edges_query : forall t a f b dir, inv t a -> a_f a f = Some (true, Some b) -> MF_Edges t f (b2z dir) NULL = Ok (map fst (walk dir b)).
Proof.
  intros t a f b dir I Hf. destruct (face_rep _ _ _ _ I Hf) as (x & l & Hx & Hl & Rp). unfold MF_Edges, getf. rewrite Hx. cbn [bind]. rewrite Hl. cbn [bind nn]. rewrite Z.eqb_refl.
  destruct dir; cbn [b2z Z.eqb walk]. destruct Rp as (-> & _). auto. rewrite plain_edges_rev. destruct Rp as (-> & _). unfold turned. rewrite map_rev, map_map. auto.
Qed.
Lemma walk_edges : forall dir b, lists (map fst (walk dir b)) (fun e => In e (map fst b)) <-> NoDup (map fst b).
Proof.
  intros dir b. assert (P : Permutation (map fst (walk dir b)) (map fst b)). { destruct dir; cbn. auto. unfold turned. rewrite map_rev, map_map. cbn. symmetry. apply Permutation_rev. }
  split. intros (N & _). eapply Permutation_NoDup; eauto. intros N. split. eapply Permutation_NoDup; [symmetry; eauto|auto]. intros x. split; apply Permutation_in; auto. symmetry. auto.
Qed.
Lemma dir01 : forall d, d = 0 \/ d = 1 -> exists b, d = b2z b.
Proof. intros d [->| ->]; [exists false|exists true]; auto. Qed.
Lemma region_head : forall t a r b, inv t a -> a_r a r = Some (true, Some b) -> b <> [] -> exists x l, trs t r = Some x /\ r_faces x = Some l /\ l = map fst b /\ exists d, fd_get (r_fdirs x) 0 = Ok d /\ (d = 0 \/ d = 1).
Proof.
  intros t a r b I Hr HN. destruct (inv_rfull _ _ _ _ _ I Hr) as (x & l & Hx & _ & Hl & Rp & _). exists x, l. split; auto. split; auto. split. apply Rp.
  destruct b as [|y b]; [congruence|]. pose proof (rrep_get _ _ _ 0 Rp) as E. cbn [length] in E. change (Z.of_nat 0) with 0 in E. rewrite E by lia. eexists. split; [reflexivity|]. destruct (snd _); cbn; auto.
Qed.
Theorem C26_region_edges_poly : forall t a r b, reach t a -> a_r a r = Some (true, Some b) -> b <> [] -> last_shared a b ->
  exists l, MR_Edges_poly t r = Ok l /\ lists l (fun e => r_edge a r e).
Proof.
  intros t a r b R Hr HN HL. pose proof (reach_inv _ _ R) as I. destruct (region_head _ _ _ _ I Hr HN) as (x & l & Hx & Hl & El & d & Ed & Hd).
  unfold MR_Edges_poly, getr. rewrite Hx. cbn [bind]. rewrite Hl. cbn [bind nn]. rewrite Ed. cbn [bind].
  assert (FF : forall f, In f l -> exists c, a_f a f = Some (true, Some c)). { intros f Hf. subst l. apply (full_in _ _ _ (w_rf _ (i_w _ _ I) _ _ Hr) Hf). }
  destruct (poly_collect_ok (fun f dir => MF_Edges t f dir NULL) (fun f e => has_edge a f e) l d) as (res & Er & Lr).
  - subst l. destruct b; [congruence|discriminate].
  - auto.
  - intros f dir Hf Hdir. destruct (FF f Hf) as (c & Hc). destruct (dir01 _ Hdir) as (db & ->). rewrite (face_edges_query t a f c db I Hc). eexists. split; [reflexivity|]. destruct (w_fnd _ (i_w _ _ I) _ _ _ Hc) as (ND & _). apply (walk_edges db) in ND. destruct ND as (_ & ND). intros e. rewrite ND. split. intros. exists c. auto. intros (c' & Hc' & Hi). congruence.
  - intros f dir es Hf _ HE. destruct (FF f Hf) as (c & Hc). destruct (face_rep _ _ _ _ I Hc) as (z & lz & Hz & Hlz & Rpz). unfold MF_Edges, getf in HE. rewrite Hz in HE. cbn [bind] in HE. rewrite Hlz in HE. cbn [bind nn] in HE. rewrite Z.eqb_refl in HE.
    destruct (w_fnd _ (i_w _ _ I) _ _ _ Hc) as (ND & _). destruct Rpz as (-> & _). destruct (dir =? 0). rewrite plain_edges_rev in HE. inversion HE; subst. apply NoDup_rev; auto. inversion HE; subst. auto.
  - intros e H2 He. destruct (HL (last l NULL) e) as (f & Hf & HQ); auto. subst l. rewrite map_length in H2. auto. subst l. auto. exists f. subst l. auto.
  - exists res. split; auto. eapply lists_ext. exact Lr. intros e. cbv beta. unfold r_edge, e_region. subst l. split.
    + intros (f & Hf & He). apply in_map_iff in Hf. destruct Hf as ([f' df] & Ef & Hf). cbn in Ef. subst f'. exists f, df. split; auto. exists b. auto.
    + intros (f & df & He & (b' & Hb' & Hf)). rewrite Hr in Hb'. inversion Hb'; subst b'. exists f. split; auto. apply in_map_iff. exists (f, df). auto.
Qed.
(** Vertices: the faces must be closed loops that pass each vertex once. *)
Definition good_face a f := exists b u, a_f a f = Some (true, Some b) /\ path a u b u /\ NoDup (stops a b).
Lemma loop_verts : forall t a f dir, reach t a -> good_face a f -> exists vs, MF_Vertices t f (b2z dir) NULL = Ok vs /\ lists vs (fun v => exists e, has_edge a f e /\ is_end a e v).
Proof.
  intros t a f dir R (b & u & Hf & Hp & ND). pose proof (reach_inv _ _ R) as I. destruct (C23_face_loop t a f b u dir NULL R Hf Hp) as (A & _ & _). destruct (A eq_refl) as (vs & E1 & _ & AR). exists vs. split; auto.
  pose proof (closed_linked _ _ _ Hp) as LK. pose proof (face_edges_ok _ _ _ _ I Hf) as EO. apply around_vat in AR.
  assert (PV : Permutation (map (vend a) b) (map (vat a) b)). { destruct b as [|y b]. auto. rewrite vend_shift; auto; [|discriminate]. cbn. symmetry. apply Permutation_cons_append. }
  assert (P : Permutation vs (map (vat a) b)). { subst vs. destruct dir; cbn. auto. rewrite vat_turned. rewrite <- Permutation_rev. auto. }
  rewrite stops_vend in ND. split. { eapply Permutation_NoDup; [|exact ND]. rewrite P. auto. }
  intros v. split.
  - intros Hv. apply (Permutation_in _ P) in Hv. apply in_map_iff in Hv. destruct Hv as ([e d] & Ev & Hi). exists e. split. exists b. split; auto. apply in_map_iff. exists (e, d). auto.
    rewrite Forall_forall in EO. destruct (EO _ Hi) as [[p q] Hpq]. cbn in Hpq. exists p, q. split; auto. unfold vat in Ev. cbn in Ev. rewrite Hpq in Ev. unfold d_start in Ev. destruct d; cbn in Ev; auto.
  - intros (e & (b' & Hb' & Hi) & He). rewrite Hf in Hb'. inversion Hb'; subst b'. apply in_map_iff in Hi. destruct Hi as ([e' d] & Ee & Hi). cbn in Ee. subst e'. destruct (use_end a b true v LK e d Hi He) as (j & Hj & Ej).
    apply (Permutation_in (l := map (vat a) b)). symmetry; auto. cbn in Ej. rewrite <- Ej. apply in_map. apply nth_In. auto.
Qed.
Theorem C26_region_vertices_poly : forall t a r b, reach t a -> a_r a r = Some (true, Some b) -> b <> [] -> Forall (fun x => good_face a (fst x)) b -> last_shared a b ->
  exists l, MR_Vertices_poly t r = Ok l /\ lists l (fun v => r_vertex a r v).
Proof.
  intros t a r b R Hr HN HG HL. pose proof (reach_inv _ _ R) as I. destruct (region_head _ _ _ _ I Hr HN) as (x & l & Hx & Hl & El & d & Ed & Hd).
  unfold MR_Vertices_poly, getr. rewrite Hx. cbn [bind]. rewrite Hl. cbn [bind nn]. rewrite Ed. cbn [bind].
  assert (GG : forall f, In f l -> good_face a f). { intros f Hf. subst l. rewrite Forall_forall in HG. apply in_map_iff in Hf. destruct Hf as (y & <- & Hy). auto. }
  destruct (poly_collect_ok (fun f dir => MF_Vertices t f dir NULL) (fun f v => exists e, has_edge a f e /\ is_end a e v) l d) as (res & Er & Lr).
  - subst l. destruct b; [congruence|discriminate].
  - auto.
  - intros f dir Hf Hdir. destruct (dir01 _ Hdir) as (db & ->). destruct (loop_verts t a f db R (GG f Hf)) as (vs & Ev & Lv). exists vs. split; auto. apply Lv.
  - intros f dir es Hf Hdir HE. destruct (dir01 _ Hdir) as (db & ->). destruct (loop_verts t a f db R (GG f Hf)) as (vs & Ev & Lv). rewrite HE in Ev. inversion Ev; subst. apply Lv.
  - intros v H2 (e & He & Hv). destruct (HL (last l NULL) e) as (f & Hf & HQ); auto. subst l. rewrite map_length in H2. auto. subst l. auto. exists f. subst l. eauto.
  - exists res. split; auto. eapply lists_ext. exact Lr. intros v. cbv beta. unfold r_vertex, v_region, e_region. subst l. split.
    + intros (f & Hf & e & He & Hv). apply in_map_iff in Hf. destruct Hf as ([f' df] & Ef & Hf). cbn in Ef. subst f'. exists e. split; auto. exists f, df. split; auto. exists b. auto.
    + intros (e & Hv & f & df & He & (b' & Hb' & Hf)). rewrite Hr in Hb'. inversion Hb'; subst b'. exists f. split; eauto. apply in_map_iff. exists (f, df). auto.
Qed.
Print Assumptions C26_region_edges_poly.
Print Assumptions C26_region_vertices_poly.
(** A triangular bipyramid: the outer faces of the two tetrahedra. *)
Definition bipyramid : list top := tets ++ [TDelR 22 false; TDelR 23 false; TNewR; TSetFaces 24 [(15, false); (16, true); (18, false); (19, true); (20, true); (21, false)]].
Definition T2 : topo := done (trun empty_topo bipyramid).
Lemma T2_reach : reach T2 (arun amesh0 bipyramid).
Proof.
  assert (H : tallowed amesh0 bipyramid) by (apply tallowedb_ok with (t := empty_topo); [exact inv0|vm_compute; reflexivity]).
  destruct (trun_ok bipyramid _ _ inv0 H) as (t & E & I). exists bipyramid. split; [exact H|]. split; [unfold T2; rewrite E; reflexivity|reflexivity].
Qed.
Lemma T2_faces : forall f b, a_f (arun amesh0 bipyramid) f = Some (true, Some b) -> (exists u, path (arun amesh0 bipyramid) u b u) -> NoDup (stops (arun amesh0 bipyramid) b) -> good_face (arun amesh0 bipyramid) f.
Proof. intros f b H (u & Hp) N. exists b, u. auto. Qed.
Ltac pathok := vm_compute; repeat (eexists; split; [reflexivity|split; [discriminate|split; [reflexivity|]]]); reflexivity.
Ltac stopsok := vm_compute; repeat constructor; cbn; intros HH; repeat destruct HH as [HH|HH]; try discriminate; auto.
Ltac goodf u := eapply T2_faces; [vm_compute; reflexivity|exists u; pathok|stopsok].
Example C26_region_poly_ex : exists t a r b, reach t a /\ a_r a r = Some (true, Some b) /\ b <> [] /\ Forall (fun x => good_face a (fst x)) b /\ last_shared a b /\
  MR_Edges_poly t r = Ok [6; 9; 7; 10; 8; 11; 13; 12; 14] /\ MR_Vertices_poly t r = Ok [1; 2; 3; 4; 5].
Proof.
  exists T2, (arun amesh0 bipyramid), 24. eexists. split. exact T2_reach. split. vm_compute; reflexivity. split. discriminate. split.
  - constructor; [goodf 1|]. constructor; [goodf 1|]. constructor; [goodf 1|]. constructor; [goodf 2|]. constructor; [goodf 3|]. constructor; [goodf 2|]. constructor.
  - split; [|split; vm_compute; reflexivity]. intros g e _ <- (b & Hb & He). vm_compute in Hb. inversion Hb; subst b. cbn in He. cbn [map fst removelast].
    destruct He as [<-|[<-|[<-|[]]]]; [exists 16|exists 20|exists 19]; (split; [cbn; auto 8|]); (eexists; split; [vm_compute; reflexivity|cbn; auto]).
Qed.
(** A region whose surface is not closed: edges of the last face are missed. *)
Definition open_cell : list top := tets ++ [TDelR 22 false; TDelR 23 false; TNewR; TSetFaces 24 [(15, false); (16, true); (20, true)]].
Definition T3 : topo := done (trun empty_topo open_cell).
Lemma T3_reach : reach T3 (arun amesh0 open_cell).
Proof.
  assert (H : tallowed amesh0 open_cell) by (apply tallowedb_ok with (t := empty_topo); [exact inv0|vm_compute; reflexivity]).
  destruct (trun_ok open_cell _ _ inv0 H) as (t & E & I). exists open_cell. split; [exact H|]. split; [unfold T3; rewrite E; reflexivity|reflexivity].
Qed.
Theorem C26_open_region_refuted : exists t a r e v le lv, reach t a /\ r_edge a r e /\ r_vertex a r v /\ MR_Edges_poly t r = Ok le /\ MR_Vertices_poly t r = Ok lv /\ ~ In e le /\ ~ In v lv.
Proof.
  exists T3, (arun amesh0 open_cell), 24, 14, 5. eexists. eexists. split. exact T3_reach.
  assert (H : r_edge (arun amesh0 open_cell) 24 14). { exists 20, true. split. eexists. split. vm_compute. reflexivity. cbn; auto. eexists. split. vm_compute. reflexivity. cbn; auto. }
  split. exact H. split. { exists 14. split; [|exact H]. exists 4, 5. split. vm_compute. reflexivity. auto. }
  split. vm_compute. reflexivity. split. vm_compute. reflexivity. split; cbn; intros HH; repeat destruct HH as [HH|HH]; try discriminate; auto.
Qed.
Print Assumptions C26_open_region_refuted.
