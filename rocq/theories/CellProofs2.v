(** The edges of a cell; tetrahedra and pyramids. *)
From Coq Require Import ZArith List Lia Bool Arith ZifyBool ZifyNat Permutation.
From Verif Require Import Base BaseProofs ListSpec HashProofs AttModel AttProps ParModel ParProps TopoModel TopoSpec TopoProofs TopoProofs2 TopoProofs3 TopoProofs4 TopoProofs5 TopoProofs6 TopoProofs7 TopoProps TopoProps2 TopoProps3 ModProofs CellModel CellSpec CellProofs.
Import ListNotations.
Open Scope Z_scope.

(** ** Adjacent vertices of a shape *)

Definition consb (L : list nat) (i j : nat) : bool :=
  existsb (fun k => ((nth k L 0 =? i) && (nth (S k mod length L) L 0 =? j) || (nth k L 0 =? j) && (nth (S k mod length L) L 0 =? i))%nat) (seq 0 (length L)).
Definition adjb (s : shape) (i j : nat) : bool := existsb (fun L => consb L i j) (s_loops s).
(** A usable shape: the loops have at least three vertices, all different. *)
Definition shapeb (s : shape) : bool :=
  forallb (fun L => (3 <=? length L)%nat && lt_all (s_nv s) L && (length (nodup Nat.eq_dec L) =? length L)%nat) (s_loops s) && (length (nodup (list_eq_dec Nat.eq_dec) (s_loops s)) =? length (s_loops s))%nat.
Lemma shapes_ok : forall s, In s [tetrahedron; pyramid; prism; hexahedron] -> shapeb s = true.
Proof. intros s H. repeat (destruct H as [<-|H]; [vm_compute; reflexivity|]). destruct H. Qed.
Lemma shape_loop : forall s L, shapeb s = true -> In L (s_loops s) -> (3 <= length L)%nat /\ (forall i, In i L -> (i < s_nv s)%nat) /\ NoDup L.
Proof.
  intros s L H HL. unfold shapeb in H. rewrite andb_true_iff, forallb_forall in H. destruct H as (H & _). apply H in HL. rewrite !andb_true_iff in HL. destruct HL as ((A & B) & C). split. apply Nat.leb_le; auto. split. apply lt_all_ok; auto. apply Nat.eqb_eq in C. apply (nodup_length _ Nat.eq_dec); auto.
Qed.
Lemma shape_nodup : forall s, shapeb s = true -> NoDup (s_loops s).
Proof. intros s H. unfold shapeb in H. rewrite andb_true_iff in H. destruct H as (_ & H). apply Nat.eqb_eq in H. apply nodup_length in H. auto. Qed.

Lemma F2_length : forall A B (P : A -> B -> Prop) l l', Forall2 P l l' -> length l = length l'.
Proof. induction 1; cbn; auto. Qed.
Lemma F2_nth : forall A B (P : A -> B -> Prop) l l' da db i, Forall2 P l l' -> (i < length l')%nat -> P (nth i l da) (nth i l' db).
Proof. intros A B P l l' da db i H. revert i. induction H; intros i Hi; cbn in Hi. lia. destruct i; cbn [nth]; auto. apply IHForall2. lia. Qed.
Section Cell.
Context (t : topo) (a : amesh) (s : shape) (b : list (ptr * bool)) (ws : list ptr) (Ls : list (list nat)).
Hypothesis R : reach t a.
Hypothesis SH : shapeb s = true.
Hypothesis CV : cverts a s ws.
Hypothesis PL : Permutation Ls (s_loops s).
Hypothesis FA : faces_as a b ws Ls.

Lemma W_inj : forall i j, (i < s_nv s)%nat -> (j < s_nv s)%nat -> W ws i = W ws j -> i = j.
Proof using CV. clear -CV. destruct CV as (L & N & _). intros i j Hi Hj E. unfold W in E. apply (proj1 (NoDup_nth ws NULL) N) in E; lia. Qed.
Lemma W_live : forall i, (i < s_nv s)%nat -> live_v a (W ws i).
Proof using CV. clear -CV. destruct CV as (L & _ & V). intros i Hi. rewrite Forall_forall in V. apply V. apply nth_In. lia. Qed.
Lemma W_nn : forall i, (i < s_nv s)%nat -> W ws i <> NULL.
Proof using R CV. clear -R CV. intros i Hi. pose proof (W_live i Hi) as H. pose proof (w_v _ (i_w _ _ (reach_inv _ _ R)) (W ws i)) as K. unfold live_v in H. rewrite H in K. assert (1 <= W ws i) by (apply K; discriminate). unfold NULL. lia. Qed.
Lemma W_In : forall i, (i < s_nv s)%nat -> In (W ws i) ws.
Proof using CV. clear -CV. destruct CV as (L & _ & _). intros i Hi. apply nth_In. lia. Qed.
Lemma Ls_ok : forall L, In L Ls -> (3 <= length L)%nat /\ (forall i, In i L -> (i < s_nv s)%nat) /\ NoDup L.
Proof using SH PL. clear -SH PL. intros L H. apply (shape_loop s); auto. eapply Permutation_in; eauto. Qed.
Lemma Ls_nodup : NoDup Ls.
Proof using SH PL. clear -SH PL. eapply Permutation_NoDup. symmetry; exact PL. apply shape_nodup; auto. Qed.
Lemma map_W_nodup : forall L, NoDup L -> (forall i, In i L -> (i < s_nv s)%nat) -> NoDup (map (W ws) L).
Proof using CV. clear -CV. intros L N H. apply NoDup_map_on; auto. intros i j Hi Hj. apply W_inj; auto. Qed.
Lemma fa_length : length b = length Ls.
Proof using FA. clear -FA. apply (F2_length _ _ _ _ _ FA). Qed.
Lemma fa_nth : forall i, (i < length Ls)%nat -> outward a (nth i b dflt) (map (W ws) (nth i Ls [])).
Proof using FA. clear -FA. intros i Hi. apply (F2_nth _ _ _ _ _ dflt [] i FA Hi). Qed.
Lemma fa_In : forall L, In L Ls -> exists f d, In (f, d) b /\ outward a (f, d) (map (W ws) L).
Proof using FA. clear -FA. intros L HL. apply (In_nth _ _ []) in HL. destruct HL as (i & Hi & <-). pose proof (fa_nth i Hi) as H. destruct (nth i b dflt) as [f d] eqn:E. exists f, d. split; auto. rewrite <- E. apply nth_In. rewrite fa_length. auto. Qed.
Lemma fa_In' : forall f d, In (f, d) b -> exists L, In L Ls /\ outward a (f, d) (map (W ws) L).
Proof using FA. clear -FA. intros f d H. apply (In_nth _ _ dflt) in H. destruct H as (i & Hi & E). rewrite fa_length in Hi. exists (nth i Ls []). split. apply nth_In; auto. rewrite <- E. apply fa_nth; auto. Qed.
Lemma map_W_nth : forall L k, (k < length L)%nat -> nth k (map (W ws) L) NULL = W ws (nth k L 0%nat).
Proof using Type. clear. intros L k Hk. rewrite (nth_indep _ NULL (W ws 0%nat)) by (rewrite map_length; auto). apply map_nth. Qed.

(** An edge of a face joins two consecutive vertices of its loop. *)
Lemma face_edge_pair : forall f d L e i j, outward a (f, d) (map (W ws) L) -> In L Ls -> has_edge a f e -> joins a e (W ws i) (W ws j) -> (i < s_nv s)%nat -> (j < s_nv s)%nat -> consb L i j = true.
Proof using SH CV PL. clear -SH CV PL.
  intros f d L e i j HO HL HE HJ Hi Hj. destruct (outward_eloop _ _ _ _ HO) as (es & (EL & EJ) & EI). apply EI in HE. apply (In_nth _ _ NULL) in HE. destruct HE as (k & Hk & <-). destruct (Ls_ok L HL) as (_ & LL & _).
  rewrite EL, map_length in Hk. specialize (EJ k). rewrite map_length in EJ. specialize (EJ Hk). rewrite !map_W_nth in EJ by (auto; apply Nat.mod_upper_bound; lia).
  assert (M : (S k mod length L < length L)%nat) by (apply Nat.mod_upper_bound; lia).
  apply existsb_exists. exists k. split. apply in_seq. lia. destruct EJ as (p & q & Hpq & K). destruct HJ as (p' & q' & Hpq' & K'). rewrite Hpq in Hpq'. inversion Hpq'; subst p' q'.
  assert (B1 : (nth k L 0 < s_nv s)%nat) by (apply LL, nth_In; auto). assert (B2 : (nth (S k mod length L) L 0 < s_nv s)%nat) by (apply LL, nth_In; auto).
  rewrite orb_true_iff, !andb_true_iff, !Nat.eqb_eq. destruct K as [(K1 & K2)|(K1 & K2)], K' as [(K3 & K4)|(K3 & K4)]; rewrite K1 in K3; rewrite K2 in K4; apply W_inj in K3; apply W_inj in K4; auto.
Qed.
(** Two consecutive vertices of a loop are joined by an edge of the face. *)
Lemma face_pair_edge : forall f d L i j, outward a (f, d) (map (W ws) L) -> consb L i j = true -> exists e, has_edge a f e /\ joins a e (W ws i) (W ws j).
Proof using Type. clear.
  intros f d L i j HO HC. destruct (outward_eloop _ _ _ _ HO) as (es & (EL & EJ) & EI). apply existsb_exists in HC. destruct HC as (k & Hk & HC). apply in_seq in Hk. rewrite map_length in EL. specialize (EJ k). rewrite map_length in EJ. specialize (EJ ltac:(lia)).
  rewrite !map_W_nth in EJ by (try apply Nat.mod_upper_bound; lia). exists (nth k es NULL). split. apply EI, nth_In. lia. rewrite orb_true_iff, !andb_true_iff, !Nat.eqb_eq in HC. destruct HC as [(<- & <-)|(<- & <-)]; auto. apply joins_sym; auto.
Qed.
Lemma cell_pair_edge : forall i j, adjb s i j = true -> exists e, cell_edge a b e /\ joins a e (W ws i) (W ws j).
Proof using PL FA. clear -PL FA.
  intros i j H. apply existsb_exists in H. destruct H as (L & HL & HC). apply (Permutation_in _ (Permutation_sym PL)) in HL. destruct (fa_In L HL) as (f & d & Hf & HO). destruct (face_pair_edge _ _ _ _ _ HO HC) as (e & He & HJ). exists e. split; auto. exists f, d. auto.
Qed.
Lemma cell_edge_pair : forall e i j, cell_edge a b e -> joins a e (W ws i) (W ws j) -> (i < s_nv s)%nat -> (j < s_nv s)%nat -> adjb s i j = true.
Proof using SH CV PL FA. clear -SH CV PL FA.
  intros e i j (f & d & Hf & He) HJ Hi Hj. destruct (fa_In' f d Hf) as (L & HL & HO). apply existsb_exists. exists L. split. eapply Permutation_in; eauto. eapply face_edge_pair; eauto.
Qed.
Lemma cell_edge_ends : forall e, cell_edge a b e -> exists i j, (i < s_nv s)%nat /\ (j < s_nv s)%nat /\ adjb s i j = true /\ joins a e (W ws i) (W ws j).
Proof using SH PL FA. clear -SH PL FA.
  intros e (f & d & Hf & He). destruct (fa_In' f d Hf) as (L & HL & HO). destruct (outward_eloop _ _ _ _ HO) as (es & (EL & EJ) & EI). apply EI in He. apply (In_nth _ _ NULL) in He. destruct He as (k & Hk & <-). destruct (Ls_ok L HL) as (_ & LL & _).
  rewrite EL, map_length in Hk. specialize (EJ k). rewrite map_length in EJ. specialize (EJ Hk). rewrite !map_W_nth in EJ by (auto; apply Nat.mod_upper_bound; lia).
  assert (M : (S k mod length L < length L)%nat) by (apply Nat.mod_upper_bound; lia).
  exists (nth k L 0%nat), (nth (S k mod length L) L 0%nat). split. apply LL, nth_In; auto. split. apply LL, nth_In; auto. split; auto. apply existsb_exists. exists L. split. eapply Permutation_in; eauto. apply existsb_exists. exists k. split. apply in_seq; lia. rewrite !Nat.eqb_refl. auto.
Qed.
Lemma common_adj : forall i j, (i < s_nv s)%nat -> (j < s_nv s)%nat -> i <> j -> adjb s i j = true -> exists e, MVs_CommonEdge t (W ws i) (W ws j) = Ok e /\ e <> NULL /\ joins a e (W ws i) (W ws j).
Proof using R CV PL FA. clear -R CV PL FA.
  intros i j Hi Hj N HA. destruct (common_edge t a (W ws i) (W ws j) R (W_live i Hi)) as (e & E & [(K1 & K2)|(K1 & K2)]). intros X. apply W_inj in X; auto. apply W_nn; auto. eauto. destruct (cell_pair_edge i j HA) as (e' & _ & J). destruct (K2 e' J).
Qed.
Lemma common_chord : forall i j, chordless a b ws -> (i < s_nv s)%nat -> (j < s_nv s)%nat -> i <> j -> adjb s i j = false -> MVs_CommonEdge t (W ws i) (W ws j) = Ok NULL.
Proof using R SH CV PL FA. clear -R SH CV PL FA.
  intros i j HC Hi Hj N HA. destruct (common_edge t a (W ws i) (W ws j) R (W_live i Hi)) as (e & E & [(K1 & K2)|(K1 & K2)]). intros X. apply W_inj in X; auto. apply W_nn; auto. 2: { rewrite E. congruence. }
  exfalso. assert (CE : cell_edge a b e) by (apply (HC e _ _ (W_In i Hi) (W_In j Hj) K2)). rewrite (cell_edge_pair e i j CE K2 Hi Hj) in HA. discriminate.
Qed.
Lemma W_all : forall n, n = s_nv s -> map (W ws) (seq 0 n) = ws.
Proof using CV. clear -CV. destruct CV as (L & _ & _). intros n ->. apply (list_ext _ NULL). rewrite map_length, seq_length; auto. rewrite map_length, seq_length. intros i Hi. rewrite map_W_nth by (rewrite seq_length; auto). rewrite seq_nth by auto. auto. Qed.
End Cell.

(** ** The list of faces of a region *)

Lemma region_rep : forall t a r b, reach t a -> a_r a r = Some (true, Some b) -> exists x, trs t r = Some x /\ r_faces x = Some (map fst b) /\
  forall i, (i < length b)%nat -> MR_FaceDir_i t r (Z.of_nat i) = Ok (b2z (snd (nth i b dflt))).
Proof.
  intros t a r b R Hr. destruct (inv_rfull _ _ _ _ _ (reach_inv _ _ R) Hr) as (x & l & Hx & _ & Hl & Rp & _). exists x. split; auto. pose proof Rp as (-> & _). split; auto. intros i Hi. unfold MR_FaceDir_i, getr. rewrite Hx. cbn [bind]. rewrite (rrep_get _ _ _ i Rp) by auto. auto.
Qed.
Lemma lent_fst : forall (b : list (ptr * bool)) i, (i < length b)%nat -> lent (map fst b) (Z.of_nat i) = Ok (fst (nth i b dflt)).
Proof. intros b i Hi. unfold lent. replace (Z.of_nat i <? 0) with false by lia. rewrite Nat2Z.id. rewrite (nth_indep _ NULL (fst dflt)) by (rewrite map_length; auto). rewrite map_nth. auto. Qed.

(** ** The apex *)

Lemma add_apex_ok : forall vs fv w, length fv = 3%nat -> In w fv -> ~ In w vs -> (forall v, In v fv -> v <> w -> In v vs) -> add_apex vs fv = Ok (vs ++ [w]).
Proof.
  intros vs fv w HL HI HN HO. destruct fv as [|x [|y [|z [|? ?]]]]; try discriminate. unfold add_apex. change (zrange 0 3) with [0; 1; 2]. cbn [first_i].
  assert (K : forall v, In v [x; y; z] -> negb (mem v vs) = true -> v = w). { intros v Hv Hm. destruct (Z.eq_dec v w); auto. exfalso. rewrite (proj2 (mem_In v vs)) in Hm by auto. discriminate. }
  assert (Kw : negb (mem w vs) = true). { destruct (mem w vs) eqn:E; auto. apply mem_In in E. tauto. }
  change (lent [x; y; z] 0) with (Ok x). change (lent [x; y; z] 1) with (Ok y). change (lent [x; y; z] 2) with (Ok z). cbn [bind].
  destruct (negb (mem x vs)) eqn:Ex. cbn [bind]. change (lent [x; y; z] 0) with (Ok x). cbn [bind]. rewrite (K x); cbn; auto. cbn [bind].
  destruct (negb (mem y vs)) eqn:Ey. cbn [bind]. change (lent [x; y; z] 1) with (Ok y). cbn [bind]. rewrite (K y); cbn; auto. cbn [bind].
  destruct (negb (mem z vs)) eqn:Ez. cbn [bind]. change (lent [x; y; z] 2) with (Ok z). cbn [bind]. rewrite (K z); cbn; auto.
  exfalso. destruct HI as [->|[->|[->|[]]]]; congruence.
Qed.
Lemma find_apex_ok : forall t a f d vs fv w, reach t a -> outward a (f, d) vs -> length fv = 3%nat -> In w fv -> ~ In w vs -> (forall v, In v fv -> v <> w -> In v vs) -> find_apex t f fv = Ok w.
Proof.
  intros t a f d vs fv w R HO HL HI HN HV. destruct fv as [|x [|y [|z [|? ?]]]]; try discriminate. unfold find_apex. change (zrange 0 3) with [0; 1; 2]. cbn [first_i].
  change (lent [x; y; z] 0) with (Ok x). change (lent [x; y; z] 1) with (Ok y). change (lent [x; y; z] 2) with (Ok z). cbn [bind].
  assert (K : forall v, In v [x; y; z] -> exists c, MF_UsesVertex t f v = Ok c /\ (c = false <-> v = w)).
  { intros v Hv. destruct (face_uses_vertex t a f d vs v R HO) as (c & E & HE). exists c. split; auto. split. intros ->. destruct (Z.eq_dec v w); auto. exfalso. assert (false = true) by (apply HE, HV; auto). discriminate. intros ->. destruct c; auto. exfalso. tauto. }
  destruct (K x) as (cx & -> & Kx). cbn; auto. destruct (K y) as (cy & Ey & Ky). cbn; auto. destruct (K z) as (cz & Ez & Kz). cbn; auto. cbn [bind]. destruct cx; cbn [negb].
  2: { cbn [bind]. change (lent [x; y; z] 0) with (Ok x). f_equal. tauto. } rewrite Ey. cbn [bind]. destruct cy; cbn [negb].
  2: { cbn [bind]. change (lent [x; y; z] 1) with (Ok y). f_equal. tauto. } rewrite Ez. cbn [bind]. destruct cz; cbn [negb].
  2: { cbn [bind]. change (lent [x; y; z] 2) with (Ok z). f_equal. tauto. }
  exfalso. destruct HI as [->|[->|[->|[]]]]. assert (true = false) by (apply Kx; auto). discriminate. assert (true = false) by (apply Ky; auto). discriminate. assert (true = false) by (apply Kz; auto). discriminate.
Qed.

(** ** The first face, with the cell relabelled to begin there *)

Definition std := [tetrahedron; pyramid; prism; hexahedron].
Lemma cell_intro : forall a s b ws Ls ws0, cell a s b ws0 -> cverts a s ws -> Permutation Ls (s_loops s) -> faces_as a b ws Ls -> cell a s b ws.
Proof. intros a s b ws Ls ws0 (_ & _ & _ & U & _) (A & B & C) P F. split; auto. split; auto. split; auto. split; auto. exists Ls. auto. Qed.
Lemma rot_lens : forall t a b ws ws' Ls Ls' j, reach t a -> faces_as a b ws Ls -> faces_as a b ws' Ls' -> (j < length Ls)%nat -> length (nth j Ls' []) = length (nth j Ls []).
Proof.
  intros t a b ws ws' Ls Ls' j R F F' Hj. pose proof (F2_length _ _ _ _ _ F) as E1. pose proof (F2_length _ _ _ _ _ F') as E2. pose proof (F2_nth _ _ _ _ _ dflt [] j F Hj) as O1. pose proof (F2_nth _ _ _ _ _ dflt [] j F' ltac:(lia)) as O2. cbv beta in *.
  destruct (nth j b dflt) as [f d]. pose proof (face_num _ _ _ _ _ R O1) as N1. rewrite (face_num _ _ _ _ _ R O2) in N1. unfold ZL in N1. rewrite !map_length in N1. inversion N1. lia.
Qed.
Lemma base : forall t a s b ws Ls i f d, reach t a -> In s std -> cverts a s ws -> Permutation Ls (s_loops s) -> faces_as a b ws Ls ->
  (i < length Ls)%nat -> nth i b dflt = (f, d) -> length (nth i Ls []) = length (hd [] (s_loops s)) ->
  exists ws' Ls' es, cverts a s ws' /\ Permutation Ls' (s_loops s) /\ faces_as a b ws' Ls' /\ length Ls' = length Ls /\ (forall j, (j < length Ls)%nat -> length (nth j Ls' []) = length (nth j Ls [])) /\
    nth i Ls' [] = hd [] (s_loops s) /\
    MF_Vertices t f (b2z (negb d)) NULL = Ok (map (W ws') (bot s)) /\ MF_Edges t f (b2z (negb d)) NULL = Ok es /\ eloop a (map (W ws') (bot s)) es /\ (forall e, In e es <-> has_edge a f e) /\
    (forall k, (k < length (bot s))%nat -> bot_vertex t f (b2z d) (nth k es NULL) = Ok (W ws' k)).
Proof.
  intros t a s b ws Ls i f d R HS CV PL FA Hi Eb HL. pose proof (shapes_ok s HS) as SH. pose proof (fa_nth a b ws Ls FA i Hi) as HO. rewrite Eb in HO.
  assert (HI : In (nth i Ls []) Ls) by (apply nth_In; auto). destruct (Ls_ok s Ls SH PL _ HI) as (L3 & _ & _).
  destruct (face_query t a f d _ (negb d) R HO) as (vs & es & E1 & E2 & E3 & E4 & E5 & E6). { destruct (nth i Ls []); [cbn in L3; lia|discriminate]. }
  replace (Bool.eqb d (negb d)) with false in E3 by (destruct d; auto). cbn [orient] in E3.
  destruct (anchor a s (sym_of s) b ws Ls (nth i Ls []) vs (flags_ok s HS) CV PL FA HI HL) as (ws' & g & CV' & PL' & FA' & Hg & ->); auto. intros X. rewrite X in L3. cbn in L3. lia.
  exists ws', (map g Ls), es. split; auto. split; auto. split; auto. split. apply map_length. split. { intros j Hj. apply (rot_lens t a b ws ws' Ls (map g Ls) j R FA FA' Hj). }
  split. { rewrite (nth_indep _ [] (g [])) by (rewrite map_length; auto). rewrite map_nth. auto. } split; auto. split; auto. split; auto. split; auto.
  intros k Hk. rewrite E6 by (try rewrite map_length; auto). f_equal. rewrite map_W_nth by auto. unfold bot in *. rewrite seq_length in Hk. rewrite seq_nth by auto. auto.
Qed.

Lemma dir_not : forall d, lnot (b2z d) = b2z (negb d).
Proof. destruct d; auto. Qed.
Lemma eloop3 : forall a x y z es, eloop a [x; y; z] es -> exists e0 e1 e2, es = [e0; e1; e2] /\ joins a e0 x y /\ joins a e1 y z /\ joins a e2 z x.
Proof.
  intros a x y z es (L & H). destruct es as [|e0 [|e1 [|e2 [|? ?]]]]; try discriminate. exists e0, e1, e2. split; auto. pose proof (H 0%nat ltac:(cbn; lia)). pose proof (H 1%nat ltac:(cbn; lia)). pose proof (H 2%nat ltac:(cbn; lia)). auto.
Qed.
Lemma eloop4 : forall a x y z u es, eloop a [x; y; z; u] es -> exists e0 e1 e2 e3, es = [e0; e1; e2; e3] /\ joins a e0 x y /\ joins a e1 y z /\ joins a e2 z u /\ joins a e3 u x.
Proof.
  intros a x y z u es (L & H). destruct es as [|e0 [|e1 [|e2 [|e3 [|? ?]]]]]; try discriminate. exists e0, e1, e2, e3. split; auto. pose proof (H 0%nat ltac:(cbn; lia)). pose proof (H 1%nat ltac:(cbn; lia)). pose proof (H 2%nat ltac:(cbn; lia)). pose proof (H 3%nat ltac:(cbn; lia)). auto.
Qed.
Lemma nth_other : forall A (l : list A) i j d, NoDup l -> (i < length l)%nat -> (j < length l)%nat -> i <> j -> nth i l d <> nth j l d.
Proof. intros A l i j d N Hi Hj H E. apply H. apply (proj1 (NoDup_nth l d) N); auto. Qed.

Lemma tet_ok : forall t a r b ws, reach t a -> a_r a r = Some (true, Some b) -> cell a tetrahedron b ws ->
  exists vs es, tet_vertices t r (map fst b) = Ok vs /\ tet_edges t r (map fst b) = Ok es /\ cell a tetrahedron b vs /\ edges_of a tetrahedron vs es.
Proof.
  intros t a r b ws R Hr C. destruct (region_rep t a r b R Hr) as (x & Hx & Hl & HD). pose proof C as (L0 & N0 & V0 & U & Ls & PL & FA). pose proof (F2_length _ _ _ _ _ FA) as EL. pose proof (Permutation_length PL) as EP. cbn in EP.
  assert (HS : In tetrahedron std) by (cbn; auto). pose proof (shapes_ok _ HS) as SH.
  destruct (nth 0 b dflt) as [f0 d0] eqn:E0. destruct (nth 1 b dflt) as [f1 d1] eqn:E1.
  assert (TL : forall L, In L (s_loops tetrahedron) -> length L = 3%nat) by (intros L HL; repeat (destruct HL as [<-|HL]; [reflexivity|]); destruct HL).
  destruct (base t a tetrahedron b ws Ls 0 f0 d0 R HS) as (ws' & Ls' & es & CV & PL' & FA' & LL & _ & H0 & Q1 & Q2 & Q3 & Q4 & Q5); auto. split; auto. lia. rewrite TL; auto. eapply Permutation_in; [exact PL|]. apply nth_In. lia.
  cbn [hd s_loops tetrahedron] in H0. change (bot tetrahedron) with [0; 1; 2]%nat in *. cbn [map] in *.
  assert (O1 : outward a (f1, d1) (map (W ws') (nth 1 Ls' []))) by (rewrite <- E1; apply (F2_nth _ _ _ _ _ dflt [] 1%nat FA'); lia).
  assert (K1 : In (nth 1 Ls' []) [[0; 1; 3]; [1; 2; 3]; [2; 0; 3]]%nat).
  { assert (I1 : In (nth 1 Ls' []) (s_loops tetrahedron)) by (eapply Permutation_in; [exact PL'|]; apply nth_In; lia). cbn [s_loops tetrahedron] in I1. destruct I1 as [I1|I1]; auto. exfalso. apply (nth_other _ Ls' 0 1 [] (Ls_nodup _ _ SH PL')); try lia. congruence. }
  set (K := nth 1 Ls' []) in *. clearbody K.
  destruct (face_query t a f1 d1 _ true R O1) as (fv & es1 & F1 & _ & F3 & _). { intros X. apply map_eq_nil in X. subst K. cbn in K1. intuition discriminate. }
  assert (PF : Permutation fv (map (W ws') K)). { symmetry. rewrite <- (rotation_perm _ _ _ F3). destruct (Bool.eqb d1 true); cbn [orient]; auto. apply Permutation_rev. }
  assert (NV : forall i j, (i < 4)%nat -> (j < 4)%nat -> i <> j -> W ws' i <> W ws' j) by (intros i j Hi Hj N X; apply N; apply (W_inj a tetrahedron ws' CV) in X; auto).
  assert (A : length fv = 3%nat /\ In (W ws' 3) fv /\ forall v, In v fv -> v <> W ws' 3 -> In v [W ws' 0%nat; W ws' 1%nat; W ws' 2%nat]).
  { split; [|split]. rewrite (Permutation_length PF), map_length. repeat (destruct K1 as [<-|K1]; [reflexivity|]); destruct K1.
    eapply Permutation_in; [symmetry; exact PF|]. apply in_map. repeat (destruct K1 as [<-|K1]; [cbn; auto|]); destruct K1.
    intros v Hv Hn. apply (Permutation_in _ PF) in Hv. apply in_map_iff in Hv. destruct Hv as (k & <- & Hk). assert (k = 0 \/ k = 1 \/ k = 2)%nat as [->|[->| ->]]; cbn; auto.
    assert (k <> 3%nat) by congruence. repeat (destruct K1 as [<-|K1]; [cbn in Hk; lia|]); destruct K1. }
  destruct A as (A1 & A2 & A3). assert (A4 : ~ In (W ws' 3) [W ws' 0%nat; W ws' 1%nat; W ws' 2%nat]). { cbn. intros [X|[X|[X|[]]]]; revert X; apply NV; lia. }
  assert (D0 : MR_FaceDir_i t r 0 = Ok (b2z d0)) by (change 0 with (Z.of_nat 0); rewrite HD by lia; rewrite E0; auto).
  assert (B0 : lent (map fst b) 0 = Ok f0) by (change 0 with (Z.of_nat 0); rewrite lent_fst by lia; rewrite E0; auto). assert (B1 : lent (map fst b) 1 = Ok f1) by (change 1 with (Z.of_nat 1); rewrite lent_fst by lia; rewrite E1; auto).
  apply eloop3 in Q3. destruct Q3 as (e0 & e1 & e2 & -> & J0 & J1 & J2).
  assert (CA : forall i, (i < 3)%nat -> exists e, MVs_CommonEdge t (W ws' i) (W ws' 3) = Ok e /\ e <> NULL /\ joins a e (W ws' i) (W ws' 3)). { intros i Hi. apply (common_adj t a tetrahedron b ws' Ls' R CV PL' FA'); cbn; try lia. destruct i as [|[|[|]]]; try lia; reflexivity. }
  destruct (CA 0%nat) as (l0 & C0 & N0' & J3); [lia|]. destruct (CA 1%nat) as (l1 & C1 & N1' & J4); [lia|]. destruct (CA 2%nat) as (l2 & C2 & N2' & J5); [lia|].
  exists ws', [e0; e1; e2; l0; l1; l2]. split; [|split; [|split]].
  - unfold tet_vertices. rewrite B0, D0. cbn [bind]. rewrite dir_not, Q1. cbn [bind]. rewrite B1. cbn [bind]. change 1 with (b2z true). rewrite F1. cbn [bind]. rewrite (add_apex_ok _ _ (W ws' 3)) by auto. f_equal. apply (W_all a tetrahedron ws' CV 4 eq_refl).
  - unfold tet_edges. rewrite B0, D0. cbn [bind]. rewrite dir_not, Q2. cbn [bind]. rewrite B1. cbn [bind]. change 1 with (b2z true). rewrite F1. cbn [bind].
    assert (O0 : outward a (f0, d0) [W ws' 0%nat; W ws' 2%nat; W ws' 1%nat]). { pose proof (F2_nth _ _ _ _ _ dflt [] 0%nat FA' ltac:(lia)) as X. cbv beta in X. rewrite E0, H0 in X. exact X. }
    rewrite (find_apex_ok t a f0 d0 _ fv (W ws' 3) R O0); auto. 2: { clear -A4. cbn in *. tauto. } 2: { intros v Hv Hn. specialize (A3 v Hv Hn). clear -A3. cbn in *. tauto. } cbn [bind]. replace (W ws' 3 =? NULL) with false. 2: { symmetry. apply Z.eqb_neq. apply (W_nn t a tetrahedron ws' R CV). cbn; lia. }
    change (zrange 0 3) with [0; 1; 2]. cbn [foldM]. unfold side_step. cbn [negb]. change (lent [e0; e1; e2] 0) with (Ok e0). cbn [bind]. rewrite (Q5 0%nat ltac:(cbn; lia) : bot_vertex t f0 (b2z d0) e0 = _). cbn [bind]. rewrite C0. cbn [bind]. replace (l0 =? NULL) with false by (symmetry; apply Z.eqb_neq; auto). cbn [bind app negb].
    change (lent [e0; e1; e2; l0] 1) with (Ok e1). cbn [bind]. rewrite (Q5 1%nat ltac:(cbn; lia) : bot_vertex t f0 (b2z d0) e1 = _). cbn [bind]. rewrite C1. cbn [bind]. replace (l1 =? NULL) with false by (symmetry; apply Z.eqb_neq; auto). cbn [bind app negb].
    change (lent [e0; e1; e2; l0; l1] 2) with (Ok e2). cbn [bind]. rewrite (Q5 2%nat ltac:(cbn; lia) : bot_vertex t f0 (b2z d0) e2 = _). cbn [bind]. rewrite C2. cbn [bind]. replace (l2 =? NULL) with false by (symmetry; apply Z.eqb_neq; auto). cbn [bind app negb]. auto.
  - eapply cell_intro; eauto.
  - unfold edges_of. cbn [s_edges tetrahedron]. repeat constructor; cbn [fst snd]; auto.
Qed.
