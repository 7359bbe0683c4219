(** The submeshes of a partition have no attributes and no sets. *)
From Coq Require Import ZArith Bool List Lia Arith.
From Verif Require Import Base BaseProofs ListSpec AttModel TopoModel ParModel FileModel FileSpec SendModel SendSpec PartModel.
Import ListNotations.
Open Scope Z_scope.

Section Bare.
Variable S0 : list mset.
Definition bare (st : pst) : Prop := fm_atts (sm_m (ps_sub st)) = [] /\ sm_sets (ps_sub st) = [] /\ sm_sets (ps_par st) = S0.
Lemma fold_keep : forall A St (Q : St -> Prop) (f : St -> A -> result St) l st st', (forall st x st', Q st -> f st x = Ok st' -> Q st') -> Q st -> foldM f st l = Ok st' -> Q st'.
Proof. induction l as [|x l IH]; intros st st' H Q0 E; cbn [foldM] in E. { inversion E. subst. auto. } destruct (f st x) as [st1| | |] eqn:E1; cbn [bind] in E; try discriminate E. exact (IH st1 st' H (H st x st1 Q0 E1) E). Qed.
Lemma bare_give : forall d st g, bare st -> bare (give_id d st g).
Proof. intros d st g H. unfold give_id. destruct (_ =? 0); auto. Qed.
Lemma bare_share : forall k d st g l, bare st -> bare (share k d st g l).
Proof. intros k d st g l H. unfold share. destruct (_ =? 0); [|exact H]. apply (bare_give d (set_par (set_sub st (set_master (ps_sub st) l k)) (set_master (ps_par (set_sub st (set_master (ps_sub st) l k))) g (k + 1))) g) in H. exact H. Qed.
Lemma bare_own : forall k d st g l, bare st -> bare (own k d st g l).
Proof. intros k d st g l H. unfold own. apply (bare_give d (set_par (set_sub st (set_master (ps_sub st) l k)) (set_master (ps_par (set_sub st (set_master (ps_sub st) l k))) g k)) g) in H. exact H. Qed.
Lemma bare_new : forall w k d st g st' l, (forall k d st g l, bare st -> bare (w k d st g l)) -> bare st -> new_copy w k d st g = (st', l) -> bare st'.
Proof.
  intros w k d st g st' l W (H1 & H2 & H3) E. unfold new_copy in E. destruct (add_ent d (sm_m (ps_sub st))) as [m l0] eqn:A. inversion E. subst. apply W. split; [|auto]. cbn [ps_sub set_sub with_m sm_m set_info].
  assert (A0 : fm_atts m = []). { unfold add_ent in A. destruct (d =? 0); [|destruct (d =? 1); [|destruct (d =? 2)]]; inversion A; subst; exact H1. }
  destruct (d =? 0); exact A0.
Qed.
Lemma bare_vertex : forall k st g st' l, bare st -> part_vertex k st g = Ok (st', l) -> bare st'.
Proof.
  intros k st g st' l H E. unfold part_vertex in E. destruct (g =? NULL); [discriminate E|]. destruct (found k st g); [inversion E; subst; auto|]. destruct (new_copy share k 0 st g) as [st1 l1] eqn:N. inversion E. subst. apply bare_new in N; [exact N|apply bare_share|auto].
Qed.
Lemma bare_end : forall k ge le st j st', bare st -> part_end k ge le st j = Ok st' -> bare st'.
Proof.
  intros k ge le st j st' H E. unfold part_end in E. destruct (ME_Vertex (sm_t (ps_par st)) ge j) as [gv| | |]; cbn [bind] in E; try discriminate E. destruct (part_vertex k st gv) as [[st1 lv]| | |] eqn:V; cbn [bind] in E; try discriminate E. apply bare_vertex in V; auto. destruct (ME_Set_Vertex (sm_t (ps_sub st1)) le j lv); cbn [bind] in E; try discriminate E. inversion E. exact V.
Qed.
Lemma bare_edge : forall k st g st' l, bare st -> part_edge k st g = Ok (st', l) -> bare st'.
Proof.
  intros k st g st' l H E. unfold part_edge in E. destruct (g =? NULL); [discriminate E|]. destruct (found k st g); [inversion E; subst; auto|]. destruct (new_copy share k 1 st g) as [st1 l1] eqn:N. apply bare_new in N; [|apply bare_share|auto].
  destruct (foldM (part_end k g l1) st1 [0; 1]) as [st2| | |] eqn:F; cbn [bind] in E; try discriminate E. apply (fold_keep _ _ bare) in F; [inversion E; exact F|intros; eapply bare_end; eauto|auto].
Qed.
Lemma bare_edges : forall k st g st' es ds, bare st -> part_edges k st g = Ok (st', es, ds) -> bare st'.
Proof.
  intros k st g st' es ds H E. unfold part_edges in E. destruct (MF_Edges (sm_t (ps_par st)) g 1 NULL) as [l| | |]; cbn [bind] in E; try discriminate E. apply (fold_keep _ _ (fun x => bare (fst (fst x)))) in E; auto.
  clear. intros [[st es] ds] i [[st' es'] ds'] H E. cbn [fst] in *. destruct (lent l i) as [ge| | |]; cbn [bind] in E; try discriminate E. destruct (part_edge k st ge) as [[st1 le]| | |] eqn:P; cbn [bind] in E; try discriminate E. apply bare_edge in P; auto. destruct (MF_EdgeDir_i (sm_t (ps_par st1)) g i); cbn [bind] in E; try discriminate E. destruct (MAXPV2 <=? i); [discriminate E|]. inversion E. subst. auto.
Qed.
Lemma bare_surf : forall k st g st', bare st -> surf_face k st g = Ok st' -> bare st'.
Proof.
  intros k st g st' H E. unfold surf_face in E. destruct (part_edges k st g) as [[[st1 es] ds]| | |] eqn:P; cbn [bind] in E; try discriminate E. apply bare_edges in P; auto. destruct (new_copy own k 2 st1 g) as [st2 lf] eqn:N. apply bare_new in N; [|apply bare_own|auto]. destruct (MF_Set_Edges (sm_t (ps_sub st2)) lf (ZL es) es ds); cbn [bind] in E; try discriminate E. inversion E. exact N.
Qed.
Lemma bare_face : forall k st g st' l, bare st -> vol_face k st g = Ok (st', l) -> bare st'.
Proof.
  intros k st g st' l H E. unfold vol_face in E. destruct (g =? NULL); [discriminate E|]. destruct (found k st g); [inversion E; subst; auto|]. destruct (new_copy share k 2 st g) as [st1 lf] eqn:N. apply bare_new in N; [|apply bare_share|auto].
  destruct (part_edges k st1 g) as [[[st2 es] ds]| | |] eqn:P; cbn [bind] in E; try discriminate E. apply bare_edges in P; auto. destruct (MF_Set_Edges (sm_t (ps_sub st2)) lf (ZL es) es ds); cbn [bind] in E; try discriminate E. inversion E. subst. exact P.
Qed.
Lemma bare_vol : forall k st g st', bare st -> vol_region k st g = Ok st' -> bare st'.
Proof.
  intros k st g st' H E. unfold vol_region in E. destruct (MR_Faces (sm_t (ps_par st)) g) as [l| | |]; cbn [bind] in E; try discriminate E.
  match type of E with bind ?F _ = _ => destruct F as [[[st1 fs] ds]| | |] eqn:P end; cbn [bind] in E; try discriminate E.
  apply (fold_keep _ _ (fun x => bare (fst (fst x)))) in P; [cbn [fst] in P| |auto].
  - destruct (new_copy own k 3 st1 g) as [st2 lr] eqn:N. apply bare_new in N; [|apply bare_own|auto]. destruct (MR_Set_Faces (sm_t (ps_sub st2)) lr (ZL fs) fs ds); cbn [bind] in E; try discriminate E. inversion E. exact N.
  - clear. intros [[st es] ds] i [[st' es'] ds'] H E. cbn [fst] in *. destruct (lent l i) as [ge| | |]; cbn [bind] in E; try discriminate E. destruct (vol_face k st ge) as [[st1 le]| | |] eqn:P; cbn [bind] in E; try discriminate E. apply bare_face in P; auto. destruct (MR_FaceDir_i (sm_t (ps_par st1)) g i); cbn [bind] in E; try discriminate E. destruct (MAXPF3 <=? i); [discriminate E|]. inversion E. subst. auto.
Qed.
Definition bares (x : smesh * (ptr -> list (Z * ptr)) * (Z -> Z) * list (smesh * (ptr -> ptr))) : Prop :=
  let '(s, _, _, subs) := x in sm_sets s = S0 /\ forall b f, In (b, f) subs -> fm_atts (sm_m b) = [] /\ sm_sets b = [].
Lemma bare_part : forall cell, (forall k st g st', bare st -> cell k st g = Ok st' -> bare st') -> forall cells part l x x', bares x -> foldM (one_part cell cells part) x l = Ok x' -> bares x'.
Proof.
  intros cell C cells part l x x' H E. eapply (fold_keep _ _ bares); eauto. clear -C. intros [[[s g2l] ids] subs] k x' (H1 & H2) E. unfold one_part in E.
  match type of E with bind ?F _ = _ => destruct F as [st| | |] eqn:P end; cbn [bind] in E; try discriminate E. apply (fold_keep _ _ bare) in P.
  - destruct P as (P1 & P2 & P3). inversion E. split; [auto|]. intros b f I. apply in_app_or in I as [I|[I|[]]]; [eauto|]. inversion I. subst. auto.
  - clear -C. intros st ic st' H E. destruct (rdl part ic) as [p| | |]; cbn [bind] in E; try discriminate E. destruct (negb (p =? k)); [inversion E; subst; auto|]. destruct (lent cells ic) as [g| | |]; cbn [bind] in E; try discriminate E. eauto.
  - split; [auto|]. split; auto.
Qed.
Lemma dial_sets : forall l s, sm_sets (dial_back s l) = sm_sets s.
Proof. unfold dial_back. induction l as [|p l IH]; intro s; cbn [fold_left]; auto. rewrite IH. auto. Qed.
End Bare.
Theorem partition_bare : forall s num part s' g2l subs, MESH_Partition s num part = Ok (s', g2l, subs) -> sm_sets s' = sm_sets s /\ forall b f, In (b, f) subs -> fm_atts (sm_m b) = [] /\ sm_sets b = [].
Proof.
  intros s num part s' g2l subs E. unfold MESH_Partition in E. destruct (0 <? ZL (fm_r (sm_m s))).
  - destruct (foldM (one_part vol_region (fm_r (sm_m s)) part) _ _) as [[[[s1 g1] i1] sub1]| | |] eqn:F; cbn [bind] in E; try discriminate E. apply (bare_part (sm_sets s)) in F; [|intros; eapply bare_vol; eauto|split; [auto|intros b f []]]. inversion E. subst. rewrite dial_sets. exact F.
  - destruct (0 <? ZL (fm_f (sm_m s))); [|discriminate E]. destruct (foldM (one_part surf_face (fm_f (sm_m s)) part) _ _) as [[[[s1 g1] i1] sub1]| | |] eqn:F; cbn [bind] in E; try discriminate E. apply (bare_part (sm_sets s)) in F; [|intros; eapply bare_surf; eauto|split; [auto|intros b f []]]. inversion E. subst. rewrite dial_sets. exact F.
Qed.
