(** A region built from its vertices is the standard element; the order of its
    vertices. *)
From Coq Require Import ZArith List Lia Bool Arith ZifyBool ZifyNat Permutation.
From Verif Require Import Base BaseProofs ListSpec HashProofs AttModel AttProps ParModel ParProps TopoModel TopoSpec TopoProofs TopoProofs2 TopoProofs3 TopoProofs4 TopoProofs5 TopoProofs6 TopoProofs7 TopoProps TopoProps2 TopoProps3 ModProofs ModProofs2 CellModel CellSpec CellProofs CellProofs2 CellProofs3 CellProofs4 CellProofs5 CellProofs6 BuildModel BuildProofs BuildProofs2 BuildProofs3.
Import ListNotations.
Open Scope Z_scope.

Lemma same_face_ok : forall a es a2 a' x tp, a_e a' = a_e a2 -> a_f a' = a_f a2 -> face_ok a es a2 x tp -> face_ok a es a' x tp.
Proof. intros a es a2 a' x tp E F (fb & u & H1 & H2 & H3). exists fb, u. rewrite F. split; auto. split; auto. eapply path_same; [|exact H2]. intros e _. congruence. Qed.
Lemma std_base : forall s, In s std -> (0 < length (tps s))%nat /\ (0 < length (s_loops s))%nat /\ loopn (s_edges s) (nth 0 (tps s) (([], []), ([], 0))) = nth 0 (s_loops s) [] /\
  (length (nth 0 (s_loops s) []) <= s_nv s)%nat /\ forall i, (i < length (nth 0 (s_loops s) []))%nat -> nth (S (length (nth 0 (s_loops s) []) - S i) mod length (nth 0 (s_loops s) [])) (nth 0 (s_loops s) []) 0%nat = i.
Proof.
  intros s HS. unfold std in HS. repeat (destruct HS as [<-|HS]; [split; [vm_compute; lia|split; [vm_compute; lia|split; [vm_compute; reflexivity|split; [vm_compute; lia|]]]]; intros i Hi; cbn in Hi; do 4 (destruct i as [|i]; [first [reflexivity|exfalso; lia]|]); exfalso; lia|]). destruct HS.
Qed.
Section Build.
Variables (s : shape) (t : topo) (a : amesh) (ws : list ptr) (r : ptr).
Hypothesis HS : In s std.
Hypothesis R : reach t a.
Hypothesis CV : cverts a s ws.
Hypothesis HG : forall f e u w, In u ws -> In w ws -> has_edge a f e -> joins a e u w -> good_face a f.
Hypothesis HF : forall L f d q, In L (s_loops s) -> outward a (f, d) (map (W ws) L) -> ~ has_face a q f d.
Hypothesis HR : a_r a r = Some (true, None) \/ a_r a r = Some (true, Some []).

Record built (t' : topo) (a' : amesh) (b : list (ptr * bool)) (es : list (ptr * bool)) : Prop := mkB {
  b_reach : reach t' a'; b_typed : typed t' r; b_v : a_v a' = a_v a; b_n : a_next a <= a_next a';
  b_e : forall e, e < a_next a -> a_e a' e = a_e a e; b_f : forall f, f < a_next a -> a_f a' f = a_f a f;
  b_r : forall q, a_r a' q = if q =? r then Some (true, Some b) else a_r a q;
  b_faces : Forall2 (face_ok a es a') b (tps s); b_edges : leads_all a' ws es (s_edges s);
  b_none : Forall2 (fun x p => a_next a <= fst x -> forall e', ~ joins a e' (W ws (fst p)) (W ws (snd p))) es (s_edges s);
  b_new : forall e, a_next a <= e -> a_e a' e <> None -> In e (map fst es);
  b_newf : forall f, a_next a <= f -> a_f a' f <> None -> In f (map fst b);
  b_nof : Forall2 (fun x tp => a_next a <= fst x -> forall g, ~ forall e, In e (map fst (sub es tp)) -> has_edge a g e) b (tps s) }.

Notation z := (([], []), ([], 0)).
Lemma build_core : exists t' a' b es, MR_Set_Vertices t r ws = Ok t' /\ built t' a' b es.
Proof using HS R CV HG HF HR.
  destruct (all_edges s t a ws HS R CV) as (t1 & a1 & es & E1 & D). destruct (all_faces s t a ws HS R CV HG HF t1 a1 es D) as (t2 & a2 & b & E2 & [F1 F2 F3 F4 F5 F6]).
  pose proof (F2_length _ _ _ _ _ F4) as LB. pose proof (tps_ok s HS) as TL. assert (LT : length (tps s) = length (s_loops s)) by (rewrite <- TL, map_length; auto). pose proof (g_aa2 s a ws t1 a1 es D a2 F2) as GA.
  assert (OUT : forall i, (i < length b)%nat -> outward a2 (nth i b dflt) (map (W ws) (loopn (s_edges s) (nth i (tps s) z)))). { intros i Hi. eapply (face_out s a ws HS t1 a1 es D); auto. apply nth_In. lia. apply (F2_nth _ _ _ _ _ dflt z i F4). lia. }
  destruct (set_faces_ok t2 a2 r b F1) as (t3 & a3 & E3 & R3 & V1 & V2 & V3 & V4 & V5 & V6).
  - rewrite (g_r _ _ GA). auto.
  - apply (NoDup_nth (map fst b) NULL). rewrite map_length. intros i j Hi Hj E. rewrite !nth_fst in E. pose proof (OUT i Hi) as O1. pose proof (OUT j Hj) as O2. destruct (nth i b dflt) as [f d], (nth j b dflt) as [f' d']. cbn [fst] in E. subst f'. eapply (one_loop s a ws HS CV a2); eauto; lia.
  - pose proof (std_small s HS). lia.
  - apply Forall_forall. intros x Hx. apply (In_nth _ _ dflt) in Hx. destruct Hx as (i & Hi & <-). destruct (OUT i Hi) as (fb & _ & _ & H & _). exists fb. auto.
  - intros f d q Hi HQ. exfalso. apply (In_nth _ _ dflt) in Hi. destruct Hi as (i & Hi & E). pose proof (OUT i Hi) as O. rewrite E in O. apply (grows_face a a2 GA) in HQ.
    assert (Hf : f < a_next a). { destruct HQ as (c & Hc & Hi'). pose proof (w_rf _ (i_w _ _ (reach_inv _ _ R)) q c Hc) as FU. rewrite Forall_forall in FU. apply FU in Hi'. destruct Hi' as (x & Hx). cbn [fst] in Hx. apply (old_f t a R). congruence. }
    revert HQ. apply (HF (loopn (s_edges s) (nth i (tps s) z))). apply (loopn_in s); auto. apply nth_In; lia. apply (grows_outward_back t a a2); auto.
  - exists t3, a3, b, es. split.
    + destruct (kz_ok s HS) as (k & K1 & K2 & K3). unfold MR_Set_Vertices. destruct CV as (CL & _). assert (ZE : ZL ws = Z.of_nat (s_nv s)) by (unfold ZL; rewrite CL; auto). rewrite ZE. replace (MAXPV3 <? Z.of_nat (s_nv s)) with false by lia. rewrite K1. cbn [bind]. rewrite K2. fold (evs s). rewrite E1. cbn [bind]. fold (tps s). rewrite E2. cbn [bind]. rewrite map_length, zb_fst, zb_snd. exact E3.
    + destruct GA as [G1 G2 G3 G4 G5]. constructor; auto.
      * congruence.
      * lia.
      * intros e He. rewrite V2. auto.
      * intros f Hf. rewrite V3. auto.
      * intros q. rewrite V5, G2. auto.
      * eapply F2_imp; [|exact F4]. intros x tp. apply same_face_ok; auto.
      * pose proof (ed_lead _ _ _ _ _ _ D) as LE. eapply F2_imp; [|exact LE]. intros x p (y & K). exists y. rewrite V2, F3. auto.
      * apply (ed_none _ _ _ _ _ _ D).
      * intros e He. rewrite V2, F3. apply (ed_new _ _ _ _ _ _ D); auto.
      * intros f Hf HX. rewrite V3 in HX. destruct (Z.lt_ge_cases f (a_next a1)) as [Hl|Hl]; [|apply F5; auto]. exfalso. rewrite (g_f _ _ F2 f Hl), (ed_f _ _ _ _ _ _ D) in HX. apply (old_f t a R) in HX. lia.
      * eapply F2_imp; [|exact (F2_and _ _ _ _ _ _ F4 F6)]. intros x tp ((fb & u & HX & _) & HN) Hx g HG'. destruct (Z.lt_ge_cases (fst x) (a_next a1)) as [Hl|Hl].
        rewrite (g_f _ _ F2 _ Hl), (ed_f _ _ _ _ _ _ D) in HX. assert (HY : a_f a (fst x) <> None) by congruence. apply (old_f t a R) in HY. lia.
        apply (HN Hl g). intros e He. destruct (HG' e He) as (fb' & H & Hi). exists fb'. rewrite (ed_f _ _ _ _ _ _ D). auto.
Qed.
Section Built.
Variables (t' : topo) (a' : amesh) (b es : list (ptr * bool)).
Hypothesis B : built t' a' b es.
Lemma built_out : Forall2 (fun x L => outward a' x (map (W ws) L)) b (s_loops s).
Proof using HS B. clear HG HF HR R CV.
  rewrite <- (tps_ok s HS). pose proof (b_edges _ _ _ _ B) as E.
  assert (G : forall b' l', Forall2 (face_ok a es a') b' l' -> incl l' (tps s) -> Forall2 (fun x L => outward a' x (map (W ws) L)) b' (map (loopn (s_edges s)) l')).
  { intros b' l' F. induction F as [|x tp b' l' H F IH]; intros K; cbn [map]; constructor.
    - destruct H as (fb & u & H1 & H2 & H3 & _). exists fb, u, (sub es tp). split; auto. split; auto. split; auto. apply follows_around. apply sub_follows; auto. apply K. left; auto.
    - apply IH. intros y Hy. apply K. right; auto. }
  apply G. apply (b_faces _ _ _ _ B). apply incl_refl.
Qed.
Lemma built_edge : forall e, cell_edge a' b e -> In e (map fst es).
Proof using HS B. clear HG HF HR R CV.
  intros e (f & d & Hi & HE). destruct (F2_In _ _ _ _ _ _ (b_faces _ _ _ _ B) Hi) as (tp & HT & (fb & u & H1 & H2 & H3 & _)). cbn [fst snd] in *. destruct HE as (fb' & Hb & He). rewrite H1 in Hb. inversion Hb; subst fb'. apply (sub_in s a' ws es tp HS HT (b_edges _ _ _ _ B)). apply (rot_edges _ _ _ e H3). auto.
Qed.
Lemma built_edge' : forall k, (k < length es)%nat -> cell_edge a' b (fst (nth k es dflt)).
Proof using HS B. clear HG HF HR R CV.
  intros k Hk. assert (K : forallb (fun s => forallb (fun k => existsb (fun tp => existsb (fun x => (Z.to_nat (fst x) =? k)%nat) (eds tp)) (tps s)) (seq 0 (length (s_edges s)))) std = true) by (vm_compute; reflexivity).
  pose proof (F2_length _ _ _ _ _ (b_edges _ _ _ _ B)) as LE. rewrite forallb_forall in K. specialize (K s HS). rewrite forallb_forall in K. specialize (K k ltac:(apply in_seq; lia)). apply existsb_exists in K. destruct K as (tp & HT & K). apply existsb_exists in K. destruct K as (x & Hx & K). apply Nat.eqb_eq in K.
  apply (In_nth _ _ z) in HT. destruct HT as (i & Hi & <-). pose proof (F2_length _ _ _ _ _ (b_faces _ _ _ _ B)) as LF. pose proof (F2_nth _ _ _ _ _ dflt z i (b_faces _ _ _ _ B) Hi) as (fb & u & H1 & H2 & H3 & _). destruct (nth i b dflt) as [f d] eqn:Ef. cbn [fst snd] in *. exists f, d. split. rewrite <- Ef. apply nth_In. lia. exists fb. split; auto. apply (rot_edges _ _ _ _ H3). unfold sub. rewrite map_map. apply in_map_iff. exists x. split; auto. unfold sub1. cbn [fst]. rewrite K. auto.
Qed.
Lemma built_cell : cell a' s b ws.
Proof using HS CV B. clear HG HF HR R.
  destruct CV as (CL & CN & CLV). assert (CV' : cverts a' s ws) by (split; auto; split; auto; unfold live_v; rewrite (b_v _ _ _ _ B); auto). split; auto. split; auto. split. unfold live_v. rewrite (b_v _ _ _ _ B). auto. split.
  - intros e e' u w H1 H2 J1 J2. apply built_edge in H1. apply built_edge in H2. apply (In_nth _ _ NULL) in H1. destruct H1 as (k & Hk & <-). apply (In_nth _ _ NULL) in H2. destruct H2 as (l & Hl & <-). rewrite map_length in Hk, Hl. rewrite !nth_fst in *.
    pose proof (b_edges _ _ _ _ B) as BE. pose proof (F2_length _ _ _ _ _ BE) as LE. replace l with k; auto. destruct (std_edges s HS) as (_ & S2 & S3). apply S3; try lia. destruct (S2 k ltac:(lia)) as (A1 & A2 & _). destruct (S2 l ltac:(lia)) as (A3 & A4 & _).
    pose proof (leads_joins _ _ _ _ (F2_nth _ _ _ _ _ dflt (0, 0)%nat k BE ltac:(lia))) as X. pose proof (leads_joins _ _ _ _ (F2_nth _ _ _ _ _ dflt (0, 0)%nat l BE ltac:(lia))) as Y.
    destruct (joins_ends _ _ _ _ _ _ J1 X) as [(X1 & X2)|(X1 & X2)], (joins_ends _ _ _ _ _ _ J2 Y) as [(Y1 & Y2)|(Y1 & Y2)]; subst u w; unfold pair_eqb; rewrite orb_true_iff, !andb_true_iff, !Nat.eqb_eq; apply (W_inj a' s ws CV') in Y1; auto; apply (W_inj a' s ws CV') in Y2; auto.
  - exists (s_loops s). split. apply Permutation_refl. apply built_out.
Qed.
(** Every edge between the vertices belongs to the new cell. *)
Lemma built_chordless : (forall e u w, In u ws -> In w ws -> joins a e u w -> exists p, In p (s_edges s) /\ joins a e (W ws (fst p)) (W ws (snd p))) ->
  (forall e e' u w, In u ws -> In w ws -> joins a e u w -> joins a e' u w -> e = e') -> chordless a' b ws.
Proof using HS R CV B. clear HG HF HR.
  intros H1 H2 e u w Hu Hw HJ. pose proof (b_edges _ _ _ _ B) as BE. pose proof (F2_length _ _ _ _ _ BE) as LE. destruct (Z.lt_ge_cases e (a_next a)) as [Ho|Hn].
  - assert (HJ0 : joins a e u w) by (destruct HJ as (p & q & X & Y); exists p, q; rewrite <- (b_e _ _ _ _ B e Ho); auto). destruct (H1 e u w Hu Hw HJ0) as (p & Hp & Jp). apply (In_nth _ _ (0, 0)%nat) in Hp. destruct Hp as (k & Hk & Ep).
    destruct (std_edges s HS) as (_ & S2 & _). destruct (S2 k Hk) as (A1 & A2 & _). rewrite Ep in *. assert (Hx : fst (nth k es dflt) < a_next a). { destruct (Z.lt_ge_cases (fst (nth k es dflt)) (a_next a)) as [|X]; auto. exfalso. pose proof (F2_nth _ _ _ _ _ dflt (0, 0)%nat k (b_none _ _ _ _ B) Hk) as NN. cbv beta in NN. rewrite Ep in NN. apply (NN X e Jp). }
    pose proof (leads_joins _ _ _ _ (F2_nth _ _ _ _ _ dflt (0, 0)%nat k BE ltac:(lia))) as X. rewrite Ep in X. assert (X0 : joins a (fst (nth k es dflt)) (W ws (fst p)) (W ws (snd p))) by (destruct X as (c & q & X & Y); exists c, q; rewrite <- (b_e _ _ _ _ B _ Hx); auto).
    rewrite (H2 e (fst (nth k es dflt)) (W ws (fst p)) (W ws (snd p))); auto. apply built_edge'. lia. apply (W_In a s ws CV); auto. apply (W_In a s ws CV); auto.
  - assert (Hi : In e (map fst es)). { apply (b_new _ _ _ _ B); auto. destruct HJ as (p & q & X & _). congruence. } apply (In_nth _ _ NULL) in Hi. destruct Hi as (k & Hk & <-). rewrite map_length in Hk. rewrite nth_fst. apply built_edge'. auto.
Qed.

(** The vertices of the base face as stored. *)
Lemma built_base : (forall f d, ~ outward a (f, d) (map (W ws) (nth 0 (s_loops s) []))) -> MF_Vertices t' (fst (nth 0 b dflt)) (lnot (b2z (snd (nth 0 b dflt)))) NULL = Ok (firstn (length (nth 0 (s_loops s) [])) ws).
Proof using HS R CV B. clear HG HF HR.
  intros H. destruct (std_base s HS) as (L0 & L1 & L2 & L3 & L4). pose proof (F2_nth _ _ _ _ _ dflt z 0%nat (b_faces _ _ _ _ B) L0) as (fb & u & H1 & H2 & H3 & H4). pose proof (F2_nth _ _ _ _ _ dflt [] 0%nat built_out L1) as OW. cbv beta in OW. destruct (nth 0 b dflt) as [f d]. cbn [fst snd] in *. destruct H4 as [H4|(-> & ->)].
  - exfalso. apply (H f d). eapply outward_same; [|exact OW]. intros fb' Hb. rewrite (b_f _ _ _ _ B) in Hb by auto. split; auto. intros e He. symmetry. apply (b_e _ _ _ _ B). pose proof (face_edges_ok _ _ _ _ (reach_inv _ _ R) Hb) as EO. rewrite Forall_forall in EO. apply in_map_iff in He. destruct He as (x & <- & Hx). destruct (EO x Hx) as (p & Hp). apply (old_e t a R). congruence.
  - change (lnot (b2z true)) with (b2z false). destruct (C23_face_loop t' a' f _ u false NULL (b_reach _ _ _ _ B) H1 H2) as (A & _ & _). destruct (A eq_refl) as (vs & EV & _ & AR). rewrite EV. f_equal. rewrite (around_vat _ _ _ AR). cbn [walk].
    pose proof (sub_follows s a' ws es (nth 0 (tps s) z) HS (nth_In _ z L0) (b_edges _ _ _ _ B)) as (FL & FW). rewrite L2 in FL, FW. rewrite map_length in FL. rewrite map_length in FW. apply (list_ext _ NULL).
    + rewrite map_length. unfold turned. rewrite rev_length, map_length, FL, firstn_length. destruct CV as (CL & _). lia.
    + rewrite map_length. unfold turned at 1. rewrite rev_length, map_length, FL. intros i Hi. rewrite nth_vat by (unfold turned; rewrite rev_length, map_length; lia). rewrite nth_firstn_lt by auto.
      unfold turned. rewrite rev_nth by (rewrite map_length; lia). rewrite map_length, FL. set (k := (length (nth 0 (s_loops s) []) - S i)%nat). rewrite (nth_indep _ dflt ((fun x : ptr * bool => (fst x, negb (snd x))) dflt)) by (rewrite map_length; lia). rewrite (map_nth (fun x : ptr * bool => (fst x, negb (snd x)))).
      specialize (FW k ltac:(lia)). destruct (nth k (sub es (nth 0 (tps s) z)) dflt) as [e d']. cbn [fst snd]. apply leads_neg in FW. apply leads_vat in FW. destruct FW as (-> & _). rewrite map_W_nth by (apply Nat.mod_upper_bound; lia). unfold W. f_equal. apply L4; auto.
Qed.
End Built.
End Build.

(** ** Two orders of the same cell *)
Lemma same_order : forall t a s b ws vs, In s std -> reach t a -> cell a s b ws -> cell a s b vs -> firstn (length (nth 0 (s_loops s) [])) ws = firstn (length (nth 0 (s_loops s) [])) vs -> vs = ws.
Proof.
  intros t a s b ws vs HS R (L1 & N1 & V1 & U1 & Ls1 & P1 & F1) (L2 & N2 & V2 & U2 & Ls2 & P2 & F2) E. pose proof (shapes_ok s HS) as SH. assert (C1 : cverts a s ws) by (split; auto). assert (C2 : cverts a s vs) by (split; auto).
  set (nb := length (nth 0 (s_loops s) [])) in *.
  assert (EB : forall i, (i < nb)%nat -> W vs i = W ws i). { intros i Hi. unfold W. rewrite <- (nth_firstn_lt _ vs nb i), <- (nth_firstn_lt _ ws nb i) by auto. congruence. }
  assert (K : forallb (fun s => let nb := length (nth 0 (s_loops s) []) in (nb <=? s_nv s)%nat && forallb (fun j => existsb (fun i => adjb s i j && forallb (fun k => implb (adjb s i k) (k =? j)%nat) (seq nb (s_nv s - nb))) (seq 0 nb)) (seq nb (s_nv s - nb))) std = true) by (vm_compute; reflexivity).
  rewrite forallb_forall in K. specialize (K s HS). cbv zeta in K. fold nb in K. rewrite andb_true_iff in K. destruct K as (KN & K). apply Nat.leb_le in KN. rewrite forallb_forall in K.
  apply (list_ext _ NULL). congruence. rewrite L2. intros j Hj. change (W vs j = W ws j). destruct (Nat.lt_ge_cases j nb) as [|Hn]; auto. specialize (K j ltac:(apply in_seq; lia)). apply existsb_exists in K. destruct K as (i & Hi & K). apply in_seq in Hi. rewrite andb_true_iff, forallb_forall in K. destruct K as (KA & KU).
  destruct (cell_pair_edge a s b vs Ls2 P2 F2 i j KA) as (e & CE & HJ). rewrite EB in HJ by lia. destruct (cell_edge_ends a s b ws Ls1 SH P1 F1 e CE) as (p & q & Hp & Hq & _ & HJ').
  assert (X : exists k, (k < s_nv s)%nat /\ W ws k = W vs j). { destruct (joins_ends _ _ _ _ _ _ HJ HJ') as [(Y1 & Y2)|(Y1 & Y2)]; eauto. }
  destruct X as (k & Hk & Ek). assert (Hkn : (nb <= k)%nat). { destruct (Nat.lt_ge_cases k nb) as [Hlt|]; auto. exfalso. rewrite <- EB in Ek by auto. apply (W_inj a s vs C2) in Ek; auto; lia. }
  rewrite <- Ek in HJ. pose proof (cell_edge_pair a s b ws Ls1 SH C1 P1 F1 e i k CE HJ ltac:(lia) Hk) as HA. specialize (KU k ltac:(apply in_seq; lia)). rewrite HA in KU. cbn [implb] in KU. apply Nat.eqb_eq in KU. subst k. auto.
Qed.

(** The vertices of a region start with those of its base face. *)
Lemma apex_prefix : forall vs fv rs, add_apex vs fv = Ok rs -> firstn (length vs) rs = vs.
Proof.
  intros vs fv rs H. unfold add_apex in H. destruct (first_i _ _ _) as [o| | |]; try discriminate. cbn [bind] in H. destruct o as [i|].
  - destruct (lent fv i) as [v| | |]; try discriminate. cbn [bind] in H. inversion H. apply firstn_app_exact || (rewrite firstn_app, Nat.sub_diag, firstn_all; cbn; rewrite app_nil_r; auto).
  - inversion H. apply firstn_all.
Qed.
Lemma app_prefix : forall (x y : list ptr), firstn (length x) (x ++ y) = x.
Proof. intros. rewrite firstn_app, Nat.sub_diag, firstn_all. cbn. apply app_nil_r. Qed.
Lemma lent0 : forall (b : list (ptr * bool)), b <> [] -> lent (map fst b) 0 = Ok (fst (nth 0 b dflt)).
Proof. intros [|x b] H; [congruence|]. reflexivity. Qed.
Lemma vertices_prefix : forall t a r s b ws rs v0, In s std -> reach t a -> a_r a r = Some (true, Some b) -> typed t r -> cell a s b ws -> Forall2 (fun x L => outward a x (map (W ws) L)) b (s_loops s) ->
  MF_Vertices t (fst (nth 0 b dflt)) (lnot (b2z (snd (nth 0 b dflt)))) NULL = Ok v0 -> MR_Vertices t r = Ok (Some rs) -> firstn (length v0) rs = v0.
Proof.
  intros t a r s b ws rs v0 HS R Hr HT HC FA EV EM. pose proof (F2_length _ _ _ _ _ FA) as LB. destruct (region_rep t a r b R Hr) as (x & Hx & Hf & HD). destruct (cell_kinds t a b ws (s_loops s) R FA) as (k & EK & PK & T0 & T1 & Q0).
  assert (NB : b <> []). { intros ->. pose proof (std_base s HS). cbn in LB. lia. } assert (B0 : (0 < length b)%nat) by (destruct b; [congruence|cbn; lia]). specialize (HD 0%nat B0). change (Z.of_nat 0) with 0 in HD.
  assert (E0 : entry (map fst b) 0 = fst (nth 0 b dflt)) by (rewrite entry_nth by lia; auto).
  destruct (typed_kind t a r b s ws R Hr HS HC HT) as (x' & Hx' & _ & TK). assert (x' = x) by congruence. subst x'.
  unfold MR_Vertices, getr in EM. rewrite Hx in EM. cbn [bind] in EM. rewrite Hf in EM. cbn [nn bind] in EM. rewrite TK in EM. clear TK HC HT FA T1 LB. unfold std in HS. destruct HS as [<-|[<-|[<-|[<-|[]]]]].
  - change (kind_of tetrahedron =? TET) with true in EM. cbv iota in EM. unfold tet_vertices in EM. rewrite (lent0 b NB), HD in EM. cbn [bind] in EM. rewrite EV in EM. cbn [bind] in EM. destruct (lent _ 1); try discriminate. cbn [bind] in EM. destruct (MF_Vertices _ _ 1 _); try discriminate. cbn [bind] in EM. destruct (add_apex _ _) as [vs| | |] eqn:EA; try discriminate. cbn [bind] in EM. inversion EM; subst vs. eapply apex_prefix; eauto.
  - change (kind_of pyramid =? TET) with false in EM. change (kind_of pyramid =? PRISM) with false in EM. change (kind_of pyramid =? PYRAMID) with true in EM. cbv iota in EM. unfold pyramid_vertices in EM. rewrite EK in EM. cbn [bind] in EM.
    assert (I0 : iquad0 k = 0) by (match type of PK with ?x = _ => let y := eval vm_compute in x in change x with y in PK end; congruence). rewrite I0, E0 in Q0. rewrite I0, HD in EM. cbn [bind] in EM. rewrite Q0, EV in EM. cbn [bind] in EM. destruct (MF_Vertices _ _ 1 _); try discriminate. cbn [bind] in EM. destruct (add_apex _ _) as [vs| | |] eqn:EA; try discriminate. cbn [bind] in EM. inversion EM; subst vs. eapply apex_prefix; eauto.
  - change (kind_of prism =? TET) with false in EM. change (kind_of prism =? PRISM) with true in EM. cbv iota in EM. unfold prism_vertices in EM. rewrite EK in EM. cbn [bind] in EM.
    assert (I0 : itri0 k = 0) by (match type of PK with ?x = _ => let y := eval vm_compute in x in change x with y in PK end; congruence). rewrite I0, E0 in T0. rewrite I0, HD in EM. cbn [bind] in EM. rewrite T0, EV in EM. cbn [bind] in EM.
    destruct (MR_FaceDir_i t r (itri1 k)) as [d1| | |]; try discriminate. cbn [bind] in EM. destruct (MF_Vertices _ _ d1 _) as [fv| | |]; try discriminate. cbn [bind] in EM. destruct (lent v0 0); try discriminate. cbn [bind] in EM. destruct (first_i _ _ _) as [[i|]| | |]; try discriminate; cbn [bind] in EM.
    do 3 (destruct (lent fv _); try discriminate; cbn [bind] in EM). inversion EM. apply app_prefix. inversion EM. apply firstn_all.
  - change (kind_of hexahedron =? TET) with false in EM. change (kind_of hexahedron =? PRISM) with false in EM. change (kind_of hexahedron =? PYRAMID) with false in EM. change (kind_of hexahedron =? HEX) with true in EM. cbv iota in EM.
    unfold hex_vertices in EM. rewrite (lent0 b NB), HD in EM. cbn [bind] in EM. rewrite EV in EM. cbn [bind] in EM. destruct (lent v0 0) as [rv0| | |]; try discriminate. cbn [bind] in EM. destruct (MF_Edges t _ _ rv0) as [fe| | |]; try discriminate. cbn [bind] in EM. destruct (lent fe 0); try discriminate. cbn [bind] in EM. destruct (foldM _ _ _) as [[[opp adj] st]| | |]; try discriminate. cbn [bind] in EM. destruct (fst opp =? NULL); try discriminate.
    destruct (MF_Edges t (fst adj) 1 rv0) as [ae| | |]; try discriminate. cbn [bind] in EM. destruct (lent ae _) as [ue| | |]; try discriminate. cbn [bind] in EM. destruct (ME_Vertex t ue 0) as [u0| | |]; try discriminate. cbn [bind] in EM. match type of EM with bind ?m _ = _ => destruct m as [ro| | |]; try discriminate EM end. cbn [bind] in EM. destruct (MF_Vertices _ _ (snd opp) _) as [fv| | |]; try discriminate. cbn [bind] in EM. destruct (mapM _ _); try discriminate. cbn [bind] in EM. inversion EM. apply app_prefix.
Qed.
