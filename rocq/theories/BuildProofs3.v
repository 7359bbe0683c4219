(** Building a standard element from its vertices. *)
From Coq Require Import ZArith List Lia Bool Arith ZifyBool ZifyNat Permutation.
From Verif Require Import Base BaseProofs ListSpec HashProofs AttModel AttProps ParModel ParProps TopoModel TopoSpec TopoProofs TopoProofs2 TopoProofs3 TopoProofs4 TopoProofs5 TopoProofs6 TopoProofs7 TopoProps TopoProps2 TopoProps3 ModProofs ModProofs2 CellModel CellSpec CellProofs CellProofs2 CellProofs3 CellProofs4 CellProofs5 CellProofs6 BuildModel BuildProofs BuildProofs2.
Import ListNotations.
Open Scope Z_scope.

(** ** The templates *)

Definition kz (s : shape) : nat := match std_type (Z.of_nat (s_nv s)) with Ok k => Z.to_nat k | _ => 0%nat end.
Definition pr (p : Z * Z) : nat * nat := (Z.to_nat (fst p), Z.to_nat (snd p)).
Definition evs (s : shape) : list (Z * Z) := nth (kz s) rev_template [].
Definition tps (s : shape) := combine (combine (nth (kz s) rfe_template []) (nth (kz s) rfedir_template [])) (combine (nth (kz s) rfv_template []) (nth (kz s) rfdir_template [])).
Local Notation tpt := ((list Z * list Z) * (list Z * Z))%type.
(** Edges of a face with their signs; the vertices passed. *)
Definition eds (tp : tpt) : list (Z * Z) := combine (fst (fst tp)) (snd (fst tp)).
Definition tailn (ed : list (nat * nat)) (x : Z * Z) : nat := let p := nth (Z.to_nat (fst x)) ed (0, 0)%nat in if snd x =? 1 then fst p else snd p.
Definition headn (ed : list (nat * nat)) (x : Z * Z) : nat := let p := nth (Z.to_nat (fst x)) ed (0, 0)%nat in if snd x =? 1 then snd p else fst p.
Definition loopn (ed : list (nat * nat)) (tp : tpt) : list nat := map (tailn ed) (eds tp).
Definition subsetb (x y : list nat) : bool := forallb (fun i => existsb (Nat.eqb i) y) x.
Definition tp_okb (ed : list (nat * nat)) (tp : tpt) : bool :=
  let L := loopn ed tp in
  (length (fst (fst tp)) =? length L)%nat && (snd (snd tp) =? 1) && rotb L (map Z.to_nat (fst (snd tp))) && forallb (fun z => 0 <=? z) (fst (snd tp)) &&
  forallb (fun x => (0 <=? fst x) && (Z.to_nat (fst x) <? length ed)%nat && ((snd x =? 0) || (snd x =? 1))) (eds tp) &&
  forallb (fun j => (headn ed (nth j (eds tp) (0, 0)%Z) =? nth (S j mod length L) L 0)%nat) (seq 0 (length L)).
Definition tmplb (s : shape) : bool :=
  forallb (fun p => (0 <=? fst p) && (0 <=? snd p)) (evs s) && forallb (tp_okb (s_edges s)) (tps s) &&
  forallb (fun i => forallb (fun j => implb (subsetb (nth i (s_loops s) []) (nth j (s_loops s) [])) (i =? j)%nat) (seq 0 (length (s_loops s)))) (seq 0 (length (s_loops s))).
Lemma tmpl_ok : forall s, In s std -> tmplb s = true.
Proof. intros s H. unfold std in H. repeat (destruct H as [<-|H]; [vm_compute; reflexivity|]). destruct H. Qed.
Lemma evs_ok : forall s, In s std -> map pr (evs s) = s_edges s.
Proof. intros s H. unfold std in H. repeat (destruct H as [<-|H]; [vm_compute; reflexivity|]). destruct H. Qed.
Lemma tps_ok : forall s, In s std -> map (loopn (s_edges s)) (tps s) = s_loops s.
Proof. intros s H. unfold std in H. repeat (destruct H as [<-|H]; [vm_compute; reflexivity|]). destruct H. Qed.
Lemma kz_ok : forall s, In s std -> exists k, std_type (Z.of_nat (s_nv s)) = Ok k /\ Z.to_nat k = kz s /\ Z.of_nat (s_nv s) <= MAXPV3.
Proof. intros s H. unfold std in H. repeat (destruct H as [<-|H]; [eexists; split; [vm_compute; reflexivity|split; [vm_compute; reflexivity|vm_compute; discriminate]]|]). destruct H. Qed.
Lemma subset_eq : forall s i j, In s std -> (i < length (s_loops s))%nat -> (j < length (s_loops s))%nat -> (forall k, In k (nth i (s_loops s) []) -> In k (nth j (s_loops s) [])) -> i = j.
Proof.
  intros s i j HS Hi Hj H. pose proof (tmpl_ok s HS) as K. unfold tmplb in K. rewrite !andb_true_iff in K. destruct K as (_ & K). rewrite forallb_forall in K. specialize (K i ltac:(apply in_seq; lia)). rewrite forallb_forall in K. specialize (K j ltac:(apply in_seq; lia)).
  replace (subsetb _ _) with true in K. cbn [implb] in K. apply Nat.eqb_eq; auto. symmetry. apply forallb_forall. intros k Hk. apply existsb_exists. exists k. split; auto. apply Nat.eqb_refl.
Qed.
Lemma tp_ok : forall s tp, In s std -> In tp (tps s) -> tp_okb (s_edges s) tp = true.
Proof. intros s tp HS H. pose proof (tmpl_ok s HS) as K. unfold tmplb in K. rewrite !andb_true_iff, !forallb_forall in K. destruct K as ((_ & K) & _). auto. Qed.

(** The edges of a face, from the edges of the element. *)
Definition sub1 (es : list (ptr * bool)) (x : Z * Z) : ptr * bool := let y := nth (Z.to_nat (fst x)) es dflt in (fst y, Bool.eqb (snd y) (snd x =? 1)).
Definition sub (es : list (ptr * bool)) (tp : tpt) := map (sub1 es) (eds tp).

Lemma face_edge_ok : forall es x, 0 <= fst x < Z.of_nat (length es) -> snd x = 0 \/ snd x = 1 -> face_edge (map zb es) x = Ok (zb (sub1 es x)).
Proof.
  intros es [i d] Hi Hd. cbn [fst snd] in *. unfold face_edge. cbn [fst snd]. rewrite zb_fst, zb_snd. unfold dirz. rewrite !rdl_ok by (rewrite map_length; auto). cbn [bind]. unfold sub1, zb. cbn [fst snd].
  rewrite (nth_indep (map fst es) 0 (fst dflt)), (nth_indep (map (fun x => b2z (snd x)) es) 0 (b2z (snd dflt))) by (rewrite map_length; lia). rewrite map_nth. rewrite (map_nth (fun x => b2z (snd x))). do 2 f_equal. destruct (snd _), Hd as [-> | ->]; reflexivity.
Qed.
Lemma mapM_ok : forall A B (g : A -> result B) h l, (forall x, In x l -> g x = Ok (h x)) -> mapM g l = Ok (map h l).
Proof. induction l as [|x l IH]; intros H; cbn [mapM map]; auto. rewrite H by (cbn; auto). cbn [bind]. rewrite IH by (intros; apply H; cbn; auto). auto. Qed.

Definition leads_all a (ws : list ptr) (es : list (ptr * bool)) (ed : list (nat * nat)) := Forall2 (fun x p => leads a x (W ws (fst p)) (W ws (snd p))) es ed.
Lemma leads_neg : forall a e d u w, leads a (e, d) u w -> leads a (e, negb d) w u.
Proof. intros a e d u w (y & H & H1 & H2). exists y. cbn [fst snd] in *. split; auto. destruct d; auto. Qed.
Lemma sub1_leads : forall a ws es ed x, leads_all a ws es ed -> (Z.to_nat (fst x) < length ed)%nat -> leads a (sub1 es x) (W ws (tailn ed x)) (W ws (headn ed x)).
Proof.
  intros a ws es ed x H Hi. pose proof (F2_nth _ _ _ _ _ dflt (0, 0)%nat _ H Hi) as K. cbv beta in K. unfold sub1, tailn, headn. destruct (nth _ es dflt) as [e d]. cbn [fst snd]. destruct (_ =? 1). destruct d; auto. apply leads_neg in K. destruct d; auto.
Qed.
Lemma eds_nth : forall es tp j, nth j (sub es tp) (sub1 es (0, 0)) = sub1 es (nth j (eds tp) (0, 0)).
Proof. intros. apply map_nth. Qed.
Section Tp.
Variables (s : shape) (a : amesh) (ws : list ptr) (es : list (ptr * bool)) (tp : tpt).
Hypothesis HS : In s std.
Hypothesis HT : In tp (tps s).
Hypothesis HE : leads_all a ws es (s_edges s).
Notation L := (loopn (s_edges s) tp).
Lemma loopn_in : In L (s_loops s).
Proof using HS HT. rewrite <- (tps_ok s HS). apply in_map. auto. Qed.
Lemma sub_follows : follows a (map (W ws) L) (sub es tp).
Proof using HS HT HE.
  pose proof (tp_ok s tp HS HT) as K. unfold tp_okb in K. rewrite !andb_true_iff, !forallb_forall in K. destruct K as (((((K1 & K2) & K3) & K4) & K5) & K6). split. unfold sub, loopn. rewrite !map_length. auto. rewrite map_length. intros i Hi.
  assert (Le : length L = length (eds tp)) by (unfold loopn; apply map_length). rewrite (nth_indep _ dflt (sub1 es (0, 0))) by (unfold sub; rewrite map_length; lia). rewrite eds_nth.
  rewrite !map_W_nth by (auto; apply Nat.mod_upper_bound; lia). specialize (K6 i ltac:(apply in_seq; lia)). apply Nat.eqb_eq in K6. rewrite <- K6.
  replace (nth i L 0%nat) with (tailn (s_edges s) (nth i (eds tp) (0, 0))). apply sub1_leads; auto. specialize (K5 (nth i (eds tp) (0, 0)) ltac:(apply nth_In; lia)). rewrite !andb_true_iff, Nat.ltb_lt in K5. tauto.
  unfold loopn. rewrite (nth_indep _ 0%nat (tailn (s_edges s) (0, 0))) by (rewrite map_length; lia). symmetry. apply map_nth.
Qed.
Lemma sub_mapM : mapM (face_edge (map zb es)) (combine (fst (fst tp)) (snd (fst tp))) = Ok (map zb (sub es tp)).
Proof using HS HT HE.
  pose proof (tp_ok s tp HS HT) as K. unfold tp_okb in K. rewrite !andb_true_iff, !forallb_forall in K. destruct K as (((((K1 & K2) & K3) & K4) & K5) & K6). unfold sub. rewrite map_map. apply mapM_ok. intros x Hx. specialize (K5 x Hx). rewrite !andb_true_iff, Nat.ltb_lt in K5. pose proof (F2_length _ _ _ _ _ HE). apply face_edge_ok; lia.
Qed.
Lemma sub_length : length (fst (fst tp)) = length (sub es tp).
Proof using HS HT. pose proof (tp_ok s tp HS HT) as K. unfold tp_okb in K. rewrite !andb_true_iff in K. destruct K as (((((K1 & K2) & K3) & K4) & K5) & K6). apply Nat.eqb_eq in K1. rewrite K1. unfold loopn, sub. rewrite !map_length. auto. Qed.
Lemma tp_rest : snd (snd tp) = 1 /\ rotation L (map Z.to_nat (fst (snd tp))) /\ forall z, In z (fst (snd tp)) -> 0 <= z.
Proof using HS HT. pose proof (tp_ok s tp HS HT) as K. unfold tp_okb in K. rewrite !andb_true_iff, !forallb_forall in K. destruct K as (((((K1 & K2) & K3) & K4) & K5) & K6). split. lia. split. apply rotb_ok; auto. intros z Hz. apply K4 in Hz. lia. Qed.
Lemma sub_in : forall e, In e (map fst (sub es tp)) -> In e (map fst es).
Proof using HS HT HE.
  intros e He. unfold sub in He. rewrite map_map in He. apply in_map_iff in He. destruct He as (x & <- & Hx). pose proof (tp_ok s tp HS HT) as K. unfold tp_okb in K. rewrite !andb_true_iff, !forallb_forall in K. destruct K as (((((K1 & K2) & K3) & K4) & K5) & K6). specialize (K5 x Hx). rewrite !andb_true_iff, Nat.ltb_lt in K5. pose proof (F2_length _ _ _ _ _ HE). unfold sub1. cbn [fst]. apply in_map. apply nth_In. lia.
Qed.
End Tp.

Lemma std_small : forall s, In s std -> (s_nv s <= 8)%nat /\ (length (s_loops s) <= 6)%nat.
Proof. intros s HS. unfold std in HS. repeat (destruct HS as [<-|HS]; [cbn; lia|]). destruct HS. Qed.
Lemma adj_irr : forall s k, In s std -> (k < s_nv s)%nat -> adjb s k k = false.
Proof.
  intros s k HS Hk. assert (K : forallb (fun k => negb (adjb s k k)) (seq 0 (s_nv s)) = true) by (unfold std in HS; repeat (destruct HS as [<-|HS]; [vm_compute; reflexivity|]); destruct HS).
  rewrite forallb_forall in K. specialize (K k ltac:(apply in_seq; lia)). destruct (adjb s k k); auto; discriminate.
Qed.

(** ** The edges *)
Section Build.
Variables (s : shape) (t : topo) (a : amesh) (ws : list ptr).
Hypothesis HS : In s std.
Hypothesis R : reach t a.
Hypothesis CV : cverts a s ws.
Hypothesis HG : forall f e u w, In u ws -> In w ws -> has_edge a f e -> joins a e u w -> good_face a f.
Hypothesis HF : forall L f d q, In L (s_loops s) -> outward a (f, d) (map (W ws) L) -> ~ has_face a q f d.

Record edges_done (t1 : topo) (a1 : amesh) (es : list (ptr * bool)) (ed : list (nat * nat)) : Prop := mkED {
  ed_reach : reach t1 a1; ed_grows : grows a a1; ed_f : a_f a1 = a_f a; ed_lead : leads_all a1 ws es ed;
  ed_new : forall e, a_next a <= e -> a_e a1 e <> None -> In e (map fst es);
  ed_none : Forall2 (fun x p => a_next a <= fst x -> forall e', ~ joins a e' (W ws (fst p)) (W ws (snd p))) es ed }.
Lemma F2_In : forall A B (P : A -> B -> Prop) l l' x, Forall2 P l l' -> In x l -> exists y, In y l' /\ P x y.
Proof. induction 1; intros []; subst. eexists; split; [left; reflexivity|auto]. destruct IHForall2 as (y' & ? & ?); auto. exists y'. split; auto. right; auto. Qed.
Lemma F2_and : forall A B (P Q : A -> B -> Prop) l l', Forall2 P l l' -> Forall2 Q l l' -> Forall2 (fun x y => P x y /\ Q x y) l l'.
Proof. induction 1; intros H1; inversion H1; subst; constructor; auto. Qed.
Lemma F2_imp : forall A B (P Q : A -> B -> Prop) l l', (forall x y, P x y -> Q x y) -> Forall2 P l l' -> Forall2 Q l l'.
Proof. induction 2; constructor; auto. Qed.
Lemma joins_ends : forall a e u w u' w', joins a e u w -> joins a e u' w' -> (u = u' /\ w = w') \/ (u = w' /\ w = u').
Proof. clear. intros a e u w u' w' (p & q & H & K) (p' & q' & H' & K'). rewrite H in H'. inversion H'; subst p' q'. intuition subst; auto. Qed.
Lemma all_edges : exists t1 a1 es, threadM (std_edge ws) t (evs s) = Ok (t1, map zb es) /\ edges_done t1 a1 es (s_edges s).
Proof using HS R CV. clear HG HF.
  destruct (thread_ind _ _ (std_edge ws) (fun t1 done ys => exists a1 es, ys = map zb es /\ edges_done t1 a1 es (map pr done)) (evs s) t) as (t1 & ys & E & a1 & es & -> & D).
  - exists a, []. split; auto. constructor; auto. apply grows_refl. constructor. intros e He X. apply (old_e t a R) in X. lia. constructor.
  - intros t1 done x rest ys EL (a1 & es & -> & [D1 D2 D3 D4 D5 D6]). destruct x as [i j]. set (p := pr (i, j)). destruct (std_edges s HS) as (_ & S2 & _). destruct CV as (CL & CN & CLV).
    assert (Lk : (length done < length (evs s))%nat) by (rewrite EL, app_length; cbn; lia). rewrite <- (evs_ok s HS) in S2. specialize (S2 (length done)). rewrite map_length in S2. specialize (S2 Lk).
    assert (Hp : nth (length done) (map pr (evs s)) (0, 0)%nat = p). { change (0, 0)%nat with (pr (0, 0)). rewrite map_nth, EL, app_nth2 by lia. rewrite Nat.sub_diag. auto. }
    rewrite Hp in S2. cbv zeta in S2. destruct S2 as (B1 & B2 & BA).
    assert (Nij : (fst p <> snd p)%nat) by (intros X; rewrite X, (adj_irr s _ HS B2) in BA; discriminate).
    pose proof (tmpl_ok s HS) as K. unfold tmplb in K. rewrite !andb_true_iff, !forallb_forall in K. destruct K as ((K & _) & _). specialize (K (i, j)). rewrite EL in K. specialize (K ltac:(apply in_or_app; right; left; auto)). cbn [fst snd] in K.
    unfold std_edge. cbn [fst snd]. rewrite !rdl_ok by (unfold p, pr in *; cbn [fst snd] in *; lia). cbn [bind].
    change (nth (Z.to_nat i) ws 0) with (W ws (fst p)). change (nth (Z.to_nat j) ws 0) with (W ws (snd p)).
    destruct (find_edge_ok t1 a1 (W ws (fst p)) (W ws (snd p)) D1) as (t2 & a2 & y & E & R2 & G2 & F2 & L2 & N2 & N3).
    { apply (grows_live a a1 D2). apply (W_live a s ws CV); auto. } { apply (grows_live a a1 D2). apply (W_live a s ws CV); auto. } { intros X. apply (W_inj a s ws CV) in X; auto. }
    rewrite E. exists t2, (zb y). split; auto. exists a2, (es ++ [y]). split. rewrite map_app. auto. rewrite map_app. cbn [map]. fold p. constructor.
    + auto.
    + eapply grows_trans; eauto.
    + congruence.
    + apply Forall2_app. eapply F2_imp; [|exact D4]. intros x q. apply (grows_leads t1 a1 a2 D1 G2). constructor; [|constructor]. auto.
    + intros e He HX. rewrite map_app. apply in_or_app. destruct (Z.lt_ge_cases e (a_next a1)). left. apply D5; auto. rewrite <- (g_e _ _ G2 e); auto. right. left. symmetry. apply N2; auto.
    + apply Forall2_app; auto. constructor; [|constructor]. intros Hy e' HJ. destruct (Z.lt_ge_cases (fst y) (a_next a1)) as [Hlt|Hge]; [|apply (N3 Hge e'), (grows_joins t a a1 R D2); auto].
      destruct L2 as (z & Hz & Hz'). rewrite (g_e _ _ G2 _ Hlt) in Hz. assert (Hin : In (fst y) (map fst es)) by (apply D5; [auto|congruence]). apply in_map_iff in Hin. destruct Hin as (x' & Ex & Hx').
      destruct (F2_In _ _ _ _ _ x' (F2_and _ _ _ _ _ _ D4 D6) Hx') as (q & _ & Q1 & Q2). rewrite Ex in Q2. apply leads_joins in Q1. rewrite Ex in Q1.
      assert (Q3 : joins a1 (fst y) (W ws (fst p)) (W ws (snd p))) by (apply leads_joins; exists z; auto). destruct (joins_ends _ _ _ _ _ _ Q1 Q3) as [(X1 & X2)|(X1 & X2)].
      apply (Q2 Hy e'). rewrite X1, X2. auto. apply (Q2 Hy e'). rewrite X1, X2. apply joins_sym. auto.
  - rewrite (evs_ok s HS) in D. exists t1, a1, es. auto.
Qed.

(** ** The faces *)
Variables (t1 : topo) (a1 : amesh) (es : list (ptr * bool)).
Hypothesis D : edges_done t1 a1 es (s_edges s).
Notation Lo := (loopn (s_edges s)).
Definition face_ok a2 (x : ptr * bool) (tp : tpt) := exists fb u, a_f a2 (fst x) = Some (true, Some fb) /\ path a2 u fb u /\ rotation (walk (snd x) fb) (sub es tp) /\ (fst x < a_next a \/ (snd x = true /\ fb = sub es tp)).
Record faces_done (t2 : topo) (a2 : amesh) (b : list (ptr * bool)) (l : list tpt) : Prop := mkFD {
  fd_reach : reach t2 a2; fd_grows : grows a1 a2; fd_e : a_e a2 = a_e a1; fd_face : Forall2 (face_ok a2) b l;
  fd_new : forall f, a_next a1 <= f -> a_f a2 f <> None -> In f (map fst b);
  fd_none : Forall2 (fun x tp => a_next a1 <= fst x -> forall g, ~ forall e, In e (map fst (sub es tp)) -> has_edge a1 g e) b l }.
Lemma leads_same : forall a2 ed, a_e a2 = a_e a1 -> leads_all a1 ws es ed -> leads_all a2 ws es ed.
Proof using Type. intros a2 ed E H. eapply F2_imp; [|exact H]. intros x p (y & K). exists y. rewrite E. auto. Qed.
Lemma face_out : forall a2 x tp, a_e a2 = a_e a1 -> In tp (tps s) -> face_ok a2 x tp -> outward a2 x (map (W ws) (Lo tp)).
Proof using HS D. intros a2 x tp E HT (fb & u & H1 & H2 & H3 & _). exists fb, u, (sub es tp). split; auto. split; auto. split; auto. apply follows_around. apply sub_follows; auto. apply leads_same; auto. apply (ed_lead _ _ _ _ D). Qed.
Lemma loop_facts : forall tp, In tp (tps s) -> NoDup (map (W ws) (Lo tp)) /\ (2 < length (map (W ws) (Lo tp)))%nat /\ (forall i, In i (Lo tp) -> (i < s_nv s)%nat).
Proof using HS CV. intros tp HT. pose proof (loopn_in s tp HS HT) as HI. destruct (shape_loop s _ (shapes_ok s HS) HI) as (A & B & C). split. apply (map_W_nodup a s ws CV); auto. split; auto. rewrite map_length. lia. Qed.
Lemma W_in_inv : forall L i, (forall j, In j L -> (j < s_nv s)%nat) -> (i < s_nv s)%nat -> In (W ws i) (map (W ws) L) -> In i L.
Proof using CV. intros L i HL Hi H. apply in_map_iff in H. destruct H as (j & E & Hj). apply (W_inj a s ws CV) in E; auto. congruence. Qed.
Lemma one_loop : forall a2 f d d' i j, outward a2 (f, d) (map (W ws) (Lo (nth i (tps s) (([], []), ([], 0))))) -> outward a2 (f, d') (map (W ws) (Lo (nth j (tps s) (([], []), ([], 0))))) -> (i < length (tps s))%nat -> (j < length (tps s))%nat -> i = j.
Proof using HS CV. clear HG HF D R.
  intros a2 f d d' i j O1 O2 Hi Hj. pose proof (tps_ok s HS) as TL. assert (LL : length (s_loops s) = length (tps s)) by (rewrite <- TL; apply map_length).
  set (z := (([], []), ([], 0)) : tpt) in *. assert (NL : forall k, (k < length (tps s))%nat -> nth k (s_loops s) [] = Lo (nth k (tps s) z)). { intros k Hk. rewrite <- TL. rewrite (nth_indep _ [] (Lo z)) by (rewrite map_length; auto). apply map_nth. }
  apply (subset_eq s); auto; try lia. intros k Hk. rewrite NL in * by auto. destruct (loop_facts (nth i (tps s) z)) as (_ & _ & B1). apply nth_In; auto. destruct (loop_facts (nth j (tps s) z)) as (_ & _ & B2). apply nth_In; auto.
  apply W_in_inv; auto. apply (outward_ends _ _ _ _ _ O2). apply (outward_ends _ _ _ _ _ O1). apply in_map; auto.
Qed.
Lemma g_aa2 : forall a2, grows a1 a2 -> grows a a2.
Proof using D. intros a2 H. eapply grows_trans; [apply (ed_grows _ _ _ _ D)|exact H]. Qed.
Lemma face_grow : forall t2 a2 a3 x tp, reach t2 a2 -> grows a2 a3 -> face_ok a2 x tp -> face_ok a3 x tp.
Proof using Type. intros t2 a2 a3 x tp R2 G (fb & u & H1 & H2 & H3). destruct (face_same t2 a2 a3 R2 G _ _ H1) as (K1 & K2). exists fb, u. split; auto. split; auto. eapply path_same; [|exact H2]. auto. Qed.
Lemma old_a : forall f, a_f a1 f <> None -> f < a_next a.
Proof using R D. intros f H. rewrite (ed_f _ _ _ _ D) in H. apply (old_f t a R); auto. Qed.
Lemma std_face_step : forall t2 a2 b done tp rest, tps s = done ++ tp :: rest -> faces_done t2 a2 b done -> exists t3 a3 x, std_face ws (map zb es) t2 tp = Ok (t3, zb x) /\ faces_done t3 a3 (b ++ [x]) (done ++ [tp]).
Proof using HS R CV HG HF D.
  intros t2 a2 b done tp rest EL [F1 F2 F3 F4 F5 F6]. assert (HT : In tp (tps s)) by (rewrite EL; apply in_or_app; right; left; auto).
  assert (LE : leads_all a2 ws es (s_edges s)) by (apply leads_same; auto; apply (ed_lead _ _ _ _ D)). pose proof (sub_follows s a2 ws es tp HS HT LE) as FW. destruct (loop_facts tp HT) as (NV & LV & LB). destruct (follows_ok a2 _ _ FW NV LV) as (P1 & P2 & P3 & P4).
  pose proof (sub_mapM s a2 ws es tp HS HT LE) as MM. pose proof (sub_length s es tp HS HT) as SL. destruct (tp_rest s tp HS HT) as (TD & TR & TP).
  destruct FW as (FL & FW). assert (NE : sub es tp <> []) by (intros X; rewrite X in FL; cbn in FL; lia).
  assert (LX : forall e, In e (map fst (sub es tp)) -> exists u w, In u ws /\ In w ws /\ joins a2 e u w).
  { intros e He. apply (In_nth _ _ NULL) in He. destruct He as (k & Hk & <-). rewrite map_length in Hk. rewrite nth_fst. specialize (FW k ltac:(lia)). rewrite map_length in *. assert (M : (S k mod length (Lo tp) < length (Lo tp))%nat) by (apply Nat.mod_upper_bound; lia). rewrite !map_W_nth in FW by (try lia; auto).
    eexists _, _. split; [|split; [|apply leads_joins; exact FW]]; apply (W_In a s ws CV), LB, nth_In; auto; lia. }
  destruct tp as [[rfe rfd] [rfv rfdir]]. cbn [fst snd] in *. subst rfdir. unfold std_face. rewrite MM. cbn [bind]. rewrite zb_fst, zb_snd. set (tp := ((rfe, rfd), (rfv, 1))) in *.
  destruct (edges_common t2 a2 (map fst (sub es tp)) F1) as (f & E & K). { intros X. apply map_eq_nil in X. auto. } { intros e He. destruct (LX e He) as (u & w & _ & _ & (p & q & X & _)). congruence. }
  rewrite E. cbn [bind]. destruct K as [(-> & K)|(Nf & K)].
  - rewrite Z.eqb_refl. destruct (new_face_ok t2 a2 (sub es tp) F1 P3) as (t3 & a3 & E3 & En & R3 & V1 & V2 & V3 & V4 & V5).
    { rewrite FL, map_length. apply Nat.le_trans with (s_nv s); [|pose proof (std_small s HS); lia]. destruct (shape_loop s _ (shapes_ok s HS) (loopn_in s tp HS HT)) as (_ & _ & NL). rewrite <- (seq_length (s_nv s) 0). apply NoDup_incl_length; auto. intros i Hi. apply in_seq. apply LB in Hi. lia. }
    { apply Forall_forall. intros x Hx. destruct (LX (fst x)) as (u & w & _ & _ & (p & q & X & _)). apply in_map; auto. exists (p, q). auto. }
    destruct (MF_New t2) as [t0 f0] eqn:E0. cbn [fst snd] in *. subst f0. rewrite SL, E3. cbn [bind]. exists t3, a3, (a_next a2, true). split; auto.
    assert (G3 : grows a2 a3). { constructor; [auto|auto|lia|intros e _; congruence|intros f Hf; rewrite V5; replace (f =? a_next a2) with false by lia; auto]. }
    constructor; auto. eapply grows_trans; eauto. congruence.
    + apply Forall2_app. eapply F2_imp; [|exact F4]. intros x y. apply (face_grow t2 a2 a3); auto. constructor; [|constructor]. exists (sub es tp). eexists. cbn [fst snd walk]. rewrite V5, Z.eqb_refl. split; auto. split. eapply path_same; [|exact P1]. intros e _. congruence. split; auto. apply rotation_refl.
    + intros f Hf HX. rewrite V5 in HX. rewrite map_app. apply in_or_app. destruct (Z.eqb_spec f (a_next a2)). right. left. auto. left. apply F5; auto.
    + apply Forall2_app; auto. constructor; [|constructor]. cbn [fst]. intros _ g HX. apply (K g). intros e He. specialize (HX e He). pose proof (ed_reach _ _ _ _ D) as R1. assert (Hg : g < a_next a1). { apply (old_f t1 a1 R1). destruct HX as (fb & H & _). congruence. } apply (grows_has a1 a2 F2 g e Hg). auto.
  - replace (f =? NULL) with false by (symmetry; apply Z.eqb_neq; auto).
    assert (Hd : a_f a2 f <> None). { destruct (sub es tp) as [|x l] eqn:Es; [congruence|]. destruct (K (fst x)) as (fb & H & _). left; auto. congruence. }
    assert (OUT : good_face a2 f -> exists d, rotation (walk d match a_f a2 f with Some (true, Some fb) => fb | _ => [] end) (sub es tp) /\ outward a2 (f, d) (map (W ws) (Lo tp)) /\ exists fb u, a_f a2 f = Some (true, Some fb) /\ path a2 u fb u).
    { intros (fb & u & H1 & H2 & H3). rewrite H1. destruct (loop_in_loop a2 u fb _ (sub es tp) H2 H3 P1 P2 P3 NE) as (d & RT). { intros e He. destruct (K e He) as (fb' & H' & X). congruence. } exists d. split; auto. split. exists fb, u, (sub es tp). cbn [fst snd]. split; auto. split; auto. split; auto. apply follows_around. split; auto. exists fb, u. auto. }
    assert (Ho : f < a_next a1).
    { destruct (Z.lt_ge_cases f (a_next a1)) as [|Hge]; auto. exfalso. pose proof (F5 f Hge Hd) as Hb. apply in_map_iff in Hb. destruct Hb as ([f' d'] & Ef & Hb). cbn [fst] in Ef. subst f'. apply (In_nth _ _ dflt) in Hb. destruct Hb as (i & Hi & Eb). pose proof (F2_length _ _ _ _ _ F4) as FF. set (z := (([], []), ([], 0)) : tpt).
      assert (Hi2 : (i < length done)%nat) by lia. pose proof (F2_nth _ _ _ _ _ dflt z i F4 Hi2) as KK. rewrite Eb in KK. assert (Ei : nth i (tps s) z = nth i done z) by (rewrite EL, app_nth1 by lia; auto). assert (Hin : In (nth i done z) (tps s)) by (rewrite EL; apply in_or_app; left; apply nth_In; lia).
      apply face_out in KK; auto. destruct OUT as (d & _ & O2 & _). { destruct (loop_facts _ Hin) as (N1 & N2 & _). eapply outward_good; [exact KK|auto|]. intros X. rewrite X in N2. cbn in N2. lia. }
      assert (Ej : nth (length done) (tps s) z = tp) by (rewrite EL, app_nth2, Nat.sub_diag by lia; auto). assert (LL : (length done < length (tps s))%nat) by (rewrite EL, app_length; cbn [length]; lia).
      assert (i = length done); [|lia]. eapply (one_loop a2 f d' d); fold z; try lia. rewrite Ei; exact KK. rewrite Ej; exact O2. }
    assert (H1f : a_f a1 f <> None) by (rewrite <- (g_f _ _ F2 f Ho); auto). pose proof (old_a f H1f) as Ha. pose proof (g_aa2 a2 F2) as GA.
    destruct OUT as (d & RT & OW & fb & u & Hfb & Hpath).
    { apply (grows_good t a a2); auto. destruct (sub es tp) as [|x l] eqn:Es; [congruence|]. destruct (LX (fst x)) as (u & w & Hu & Hw & HJ). left; auto. pose proof (K (fst x) ltac:(left; auto)) as HE. apply (grows_has a a2 GA f (fst x) Ha) in HE. eapply (HG f (fst x)); [exact Hu|exact Hw|exact HE|].
      assert (He : fst x < a_next a). { destruct HE as (fb & H & Hi). pose proof (face_edges_ok _ _ _ _ (reach_inv _ _ R) H) as EO. rewrite Forall_forall in EO. apply in_map_iff in Hi. destruct Hi as (y & <- & Hy). destruct (EO y Hy) as (p & Hp). apply (old_e t a R). congruence. }
      destruct HJ as (p & q & H & HH). exists p, q. rewrite <- (g_e _ _ GA _ He). auto. }
    rewrite Hfb in RT.
    destruct rfv as [|i0 [|i1 [|i2 rfv]]]; try (apply rotation_length in TR; rewrite ?map_length in *; cbn [map length] in TR; lia).
    assert (RW : rotation (map (W ws) (Lo tp)) (map (W ws) (map Z.to_nat (i0 :: i1 :: i2 :: rfv)))) by (apply rotation_map; auto). cbn [map] in RW.
    assert (BI : forall i, In i (i0 :: i1 :: i2 :: rfv) -> 0 <= i < Z.of_nat (length ws) /\ (Z.to_nat i < s_nv s)%nat). { intros i Hi. assert (Z.to_nat i < s_nv s)%nat. apply LB. apply (Permutation_in _ (Permutation_sym (rotation_perm _ _ _ TR))). apply in_map; auto. destruct CV as (CL & _). split; auto. split. apply TP; auto. lia. }
    rewrite (rdl_ok (i0 :: i1 :: i2 :: rfv) 0), (rdl_ok (i0 :: i1 :: i2 :: rfv) 1) by (cbn [length]; lia). cbn [bind]. change (nth (Z.to_nat 0) (i0 :: i1 :: i2 :: rfv) 0) with i0. change (nth (Z.to_nat 1) (i0 :: i1 :: i2 :: rfv) 0) with i1. rewrite !rdl_ok by (apply BI; cbn; auto). cbn [bind].
    change (nth (Z.to_nat i0) ws 0) with (W ws (Z.to_nat i0)). change (nth (Z.to_nat i1) ws 0) with (W ws (Z.to_nat i1)).
    rewrite (old_dir_ok t2 a2 f d _ _ _ _ F1 OW NV RW).
    + cbn [bind]. exists t2, a2, (f, d). split; auto. constructor; auto. apply Forall2_app; auto. constructor; [|constructor]. exists fb, u. cbn [fst snd]. auto. intros g Hg HX. rewrite map_app. apply in_or_app. left. apply F5; auto. apply Forall2_app; auto. constructor; [|constructor]. cbn [fst]. intros X. exfalso. lia.
    + discriminate.
    + apply (W_nn t a s ws R CV). apply BI; cbn; auto.
    + intros q HQ. apply (grows_face a a2 GA) in HQ. revert HQ. apply (HF (Lo tp)). apply loopn_in; auto. apply (grows_outward_back t a a2); auto.
Qed.
Lemma all_faces : exists t2 a2 b, threadM (std_face ws (map zb es)) t1 (tps s) = Ok (t2, map zb b) /\ faces_done t2 a2 b (tps s).
Proof using HS R CV HG HF D.
  destruct (thread_ind _ _ (std_face ws (map zb es)) (fun t2 done ys => exists a2 b, ys = map zb b /\ faces_done t2 a2 b done) (tps s) t1) as (t2 & ys & E & a2 & b & -> & FD).
  - exists a1, []. split; auto. pose proof (ed_reach _ _ _ _ D) as R1. constructor; auto. apply grows_refl. intros f Hf HX. apply (old_f t1 a1 R1) in HX. lia.
  - intros t2 done tp rest ys EL (a2 & b & -> & FD). destruct (std_face_step t2 a2 b done tp rest EL FD) as (t3 & a3 & x & E & FD3). exists t3, (zb x). split; auto. exists a3, (b ++ [x]). split; auto. rewrite map_app. auto.
  - exists t2, a2, b. auto.
Qed.
End Build.
