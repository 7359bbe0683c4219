(** The kinds of entities one after the other. *)
From Coq Require Import ZArith List Lia Bool Arith ZifyBool ZifyNat Permutation Sorting.Sorted Floats.SpecFloat.
From Verif Require Import Base BaseProofs ListSpec SortModel CompareModel CompareProps MeshModel AttModel AttProps TopoModel TopoSpec TopoProofs TopoProofs2 TopoProps TopoProps2 ParModel ParProps CommModel CommProofs CommProofs2 ExchModel ExchProofs ExchProofs2 LabelModel LabelProofs GidModel GidProofs GidProofs2 GidProofs3 CoorProofs GidProofs4 GidProofs5 GidProofs6.
Import ListNotations.
Open Scope Z_scope.

(** ** Copies *)
Definition same_vertex (tw : Z -> ptr -> Z -> ptr -> Prop) (p v q w : Z) : Prop := (p = q /\ v = w) \/ (p <> q /\ tw p v q w).
(** Edges with the same two vertices, faces with the same vertices. *)
Definition copy_edge (tw : Z -> ptr -> Z -> ptr -> Prop) (a : Z -> amesh) (p e q e' : Z) : Prop :=
  let (v, w) := ends (a p) e in let (v', w') := ends (a q) e' in
  (same_vertex tw p v q v' /\ same_vertex tw p w q w') \/ (same_vertex tw p v q w' /\ same_vertex tw p w q v').
Definition copy_face (tw : Z -> ptr -> Z -> ptr -> Prop) (a : Z -> amesh) (p f q f' : Z) : Prop :=
  (forall v, f_vertex (a p) f v -> exists w, f_vertex (a q) f' w /\ same_vertex tw p v q w) /\
  (forall w, f_vertex (a q) f' w -> exists v, f_vertex (a p) f v /\ same_vertex tw p v q w).
(** What is reached for a kind: a numbering; if there were no IDs before, each rank's
    are consecutive and two entities have the same ID exactly if they are copies. *)
Definition outcome (n : Z) (all : Z -> list ptr) (tw : Z -> ptr -> Z -> ptr -> Prop) (old new : Z -> gents) : Prop :=
  numbering n all tw old new /\ (fresh n all old -> blocks n all new /\ same_ids n all tw new /\ forall p e, on n p -> In e (all p) -> 0 < g_id (new p) e < 2 ^ 31).

Lemma outcome_ext : forall n all tw tw' old new, outcome n all tw old new -> (forall p e q e', on n p -> on n q -> p <> q -> In e (all p) -> In e' (all q) -> tw p e q e' <-> tw' p e q e') -> outcome n all tw' old new.
Proof.
  intros n all tw tw' old new (H1 & H2) E. split. apply (numbering_ext n all tw); auto. intros F. destruct (H2 F) as (B & Sm & R). split; auto. split; auto.
  intros p e q e' Hp Hq He He'. rewrite (Sm p e q e') by auto. split; (intros [H|(H & H')]; [auto|right; split; auto; apply (E p e q e'); auto]).
Qed.
Lemma numbering_outcome : forall n all tw old new, numbering n all tw old new -> (forall p, on n p -> NoDup (all p)) ->
  (forall p e q e', on n p -> on n q -> In e (all p) -> In e' (all q) -> tw p e q e' -> tw q e' p e) ->
  (forall p e q e' r e'', on n p -> on n q -> on n r -> In e (all p) -> In e' (all q) -> In e'' (all r) -> tw p e q e' -> tw q e' r e'' -> tw p e r e'') ->
  (forall p e e', on n p -> In e (all p) -> In e' (all p) -> tw p e p e' -> e = e') -> outcome n all tw old new.
Proof.
  intros n all tw old new H ND Sy Tr On. split; auto. intros F. split. apply (num_blocks n all tw old new); auto.
  set (tw' := fun p e q e' => In e (all p) /\ In e' (all q) /\ tw p e q e').
  assert (H' : numbering n all tw' old new). { apply (numbering_ext n all tw); auto. intros p e q e' Hp Hq _ He He'. unfold tw'. tauto. }
  assert (SY : forall p e q e', on n p -> on n q -> tw' p e q e' -> tw' q e' p e) by (intros p e q e' Hp Hq (A & B & C); split; auto).
  assert (TR : forall p e q e' r e'', on n p -> on n q -> on n r -> tw' p e q e' -> tw' q e' r e'' -> tw' p e r e'').
  { intros p e q e' r e'' Hp Hq Hr (A & B & C) (A' & B' & C'). split; auto. split; auto. apply (Tr p e q e' r e''); auto. }
  assert (ON : forall p e e', on n p -> tw' p e p e' -> e = e') by (intros p e e' Hp (A & B & C); apply (On p); auto).
  pose proof (num_same n all tw' old new H' F ND SY TR ON) as S'. split. 2: { apply (num_pos n all tw' old new); auto. }
  intros p e q e' Hp Hq He He'. rewrite (S' p e q e' Hp Hq He He'). unfold tw'. tauto.
Qed.

(** ** IDs of the vertices after the first step *)
Lemma ids_of : forall n x y tw, numbering n (fun p => g_vs (x p)) tw (fun p => gv (x p)) y -> same_ids n (fun p => g_vs (x p)) tw y -> (forall p v, on n p -> In v (g_vs (x p)) -> 0 < g_id (y p) v < 2 ^ 31) ->
  vertex_ids n (fun p => set_gv (x p) (y p)).
Proof.
  intros n x y tw H Sm R. constructor; cbn [set_gv g_vs gv].
  - intros p v Hp Hv. specialize (R p v Hp Hv). lia.
  - intros p v w Hp Hv Hw E. apply (Sm p v p w) in E; auto. destruct E as [(_ & E)|(E & _)]; [auto|congruence].
  - intros p v q w Hp Hq Ne Hv Hw E. apply (Sm p v q w) in E; auto. destruct E as [(E & _)|(_ & E)]; [contradiction|]. unfold shared_pt. destruct (Z.eq_dec (g_pt (y p) v) PGHOST) as [G|G]; auto. right.
    destruct (Z_lt_le_dec q p) as [L|L].
    + exfalso. apply G. apply (num_ghost _ _ _ _ _ H p v Hp Hv). exists q, w. unfold on in *. split; [lia|auto].
    + apply (num_overlap _ _ _ _ _ H p v Hp Hv G). exists q, w. unfold on in *. split; [lia|auto].
Qed.
Lemma part_gv : forall x s a, part x a -> part (set_gv x s) a.
Proof. intros x s a H. destruct H. constructor; auto. Qed.
Lemma part_ge : forall x s a, part x a -> part (set_ge x s) a.
Proof. intros x s a H. destruct H. constructor; auto. Qed.

(** ** Edges, faces and elements *)
Definition final (x : grank) (v e f r : gents) : grank := mkG (g_rep x) (g_t x) (g_vs x) (g_es x) (g_fs x) (g_rs x) (g_lid x) (g_xyz x) v e f r.

Section Rest.
  Variables (N : nat) (x : Z -> grank) (a : Z -> amesh) (junk : Z -> Z -> Z -> Z) (h : Z).
  Variables (tw : Z -> ptr -> Z -> ptr -> Prop) (yv : Z -> gents).
  Let n := Z.of_nat N.
  Hypothesis HN : (0 < N)%nat.
  Hypothesis HP : forall p, on n p -> part (x p) (a p).
  Hypothesis HVP : forall lo, protocol n lo (lo + 6) (fun p => MESH_AssignGlobalIDs_Vertex (junk p 0) n p h (x p)) (fun p => set_gv (x p) (yv p)).
  Hypothesis HVN : numbering n (fun p => g_vs (x p)) tw (fun p => gv (x p)) yv.
  Hypothesis HVS : same_ids n (fun p => g_vs (x p)) tw yv.
  Hypothesis HVR : forall p v, on n p -> In v (g_vs (x p)) -> 0 < g_id (yv p) v < 2 ^ 31.
  Hypothesis HEG : no_ghosts n (fun p => g_es (x p)) (fun p => ge (x p)).
  Hypothesis HER : forall p e, on n p -> In e (g_es (x p)) -> 0 <= g_id (ge (x p)) e.
  Hypothesis HES : total n (fun p => g_es (x p)) < 2 ^ 31 - 1.
  Let x1 p := set_gv (x p) (yv p).

  Lemma same_v : forall p v q w, on n p -> on n q -> In v (g_vs (x p)) -> In w (g_vs (x q)) -> g_id (yv p) v = g_id (yv q) w <-> same_vertex tw p v q w.
  Proof. intros p v q w Hp Hq Hv Hw. apply (HVS p v q w Hp Hq Hv Hw). Qed.
  Lemma end_in : forall p e, on n p -> In e (g_es (x p)) -> In (fst (ends (a p) e)) (g_vs (x p)) /\ In (snd (ends (a p) e)) (g_vs (x p)).
  Proof. intros p e Hp He. destruct (part_es _ _ (HP p Hp)) as (_ & P). destruct (P e He) as (v & w & E & Hv & Hw). unfold ends. rewrite E. auto. Qed.
  Lemma edge_copies : forall p e q e', on n p -> on n q -> In e (g_es (x p)) -> In e' (g_es (x q)) -> twin_edge x1 a p e q e' <-> copy_edge tw a p e q e'.
  Proof.
    intros p e q e' Hp Hq He He'. unfold twin_edge, copy_edge. destruct (end_in p e Hp He) as (A & B). destruct (end_in q e' Hq He') as (A' & B'). destruct (ends (a p) e) as (v, w). destruct (ends (a q) e') as (v', w'). cbn [fst snd] in *. unfold x1. cbn [set_gv gv]. rewrite !same_v by auto. tauto.
  Qed.
  Lemma edges_done : exists ye, (forall lo, protocol n lo (lo + 6) (fun p => MESH_AssignGlobalIDs_Edge (junk p 1) n p (x1 p)) (fun p => set_ge (x1 p) (ye p))) /\
    outcome n (fun p => g_es (x p)) (copy_edge tw a) (fun p => ge (x p)) ye /\
    (forall p e, on n p -> In e (g_es (x p)) -> g_bd (ye p) e = true <-> g_bd (ge (x p)) e = true \/ (1 <= p /\ exists q e', on n q /\ q <> p /\ In e' (g_es (x q)) /\ copy_edge tw a p e q e')).
  Proof.
    destruct (edge_stage N x1 a (fun p => junk p 1)) as (ye & P & NU & BD).
    - auto.
    - intros p Hp. apply part_gv, HP; auto.
    - apply (ids_of n x yv tw); auto.
    - exact HEG.
    - exact HER.
    - exact HES.
    - exists ye. split. exact P. assert (O : outcome n (fun p => g_es (x p)) (twin_edge x1 a) (fun p => ge (x p)) ye).
      { apply numbering_outcome. exact NU. intros p Hp. apply (part_es _ _ (HP p Hp)).
        - intros p e q e' Hp Hq He He' T. unfold twin_edge in *. destruct (ends (a p) e), (ends (a q) e'). intuition.
        - intros p e q e' r e'' Hp Hq Hr He He' He'' T T'. unfold twin_edge in *. destruct (ends (a p) e), (ends (a q) e'), (ends (a r) e''). intuition congruence.
        - intros p e e' Hp He He' T. rewrite edge_copies in T by auto. unfold copy_edge in T. destruct (part_es _ _ (HP p Hp)) as (_ & PE). destruct (PE e He) as (v & w & E & _). destruct (PE e' He') as (v' & w' & E' & _). apply (part_es1 _ _ (HP p Hp) e e' v w v' w'); auto. unfold ends in T. rewrite E, E' in T. unfold same_vertex in T. destruct T as [([(_ & ->)|(C & _)] & [(_ & ->)|(C' & _)])|([(_ & ->)|(C & _)] & [(_ & ->)|(C' & _)])]; auto; congruence. }
      split. apply (outcome_ext _ _ _ _ _ _ O). intros; apply edge_copies; auto.
      intros p e Hp He. rewrite (BD p e Hp He). unfold x1. cbn [set_gv ge g_es]. split; (intros [H|(L & q & e' & Hq & Nq & He' & T)]; [auto|right; split; auto; exists q, e'; split; auto; split; auto; split; auto; apply edge_copies; auto]).
  Qed.

  Let info2 p := [g_rep (x p); 0; 0; ZL (g_fs (x p)); 0; 0; 0; 0; 0; 0].
  Lemma surface : total n (fun p => g_fs (x p)) < 2 ^ 31 - 1 -> exists ye yf,
    (forall lo, protocol n lo (lo + 13) (fun p => MESH_AssignGlobalIDs (junk p) n p 2 h (x p)) (fun p => final (x p) (yv p) (ye p) (yf p) (gr (x p)))) /\
    outcome n (fun p => g_es (x p)) (copy_edge tw a) (fun p => ge (x p)) ye /\
    (forall p e, on n p -> In e (g_es (x p)) -> g_bd (ye p) e = true <-> g_bd (ge (x p)) e = true \/ (1 <= p /\ exists q e', on n q /\ q <> p /\ In e' (g_es (x q)) /\ copy_edge tw a p e q e')) /\
    outcome n (fun p => g_fs (x p)) no_twin (fun p => interior (gf (x p))) yf.
  Proof.
    intros HFS. destruct edges_done as (ye & P & O & BD).
    destruct (elements_stage n (fun p => g_fs (x p)) (fun p => gf (x p)) 3 (concat (map info2 (ranks n)))) as (yf & E & NU & _).
    - intros p Hp. apply (part_fs _ _ (HP p Hp)).
    - auto.
    - intros j Hj. rewrite (rdl_gather N info2 10); auto. lia.
    - exists ye, yf. split; [|split; [exact O|split; [exact BD|]]].
      + intros lo. unfold MESH_AssignGlobalIDs. apply (protocol_bind _ _ n lo (lo + 6) (lo + 13) _ x1 (fun p z => pbind (MESH_AssignGlobalIDs_Edge (junk p 1) n p z) (fun z => if 2 =? 3 then MESH_AssignGlobalIDs_Region (junk p 2) n p z else if 2 =? 2 then MESH_AssignGlobalIDs_Face p z else Fail))). lia. apply HVP.
        apply (protocol_bind _ _ n (lo + 6) (lo + 12) (lo + 13) _ (fun p => set_ge (x1 p) (ye p)) (fun p z => if 2 =? 3 then MESH_AssignGlobalIDs_Region (junk p 2) n p z else if 2 =? 2 then MESH_AssignGlobalIDs_Face p z else Fail)). lia. replace (lo + 12) with (lo + 6 + 6) by lia. apply P.
        change (2 =? 3) with false. change (2 =? 2) with true. cbv iota. unfold MESH_AssignGlobalIDs_Face. apply protocol_col. lia. unfold x1. cbn [set_gv set_ge g_rep g_t g_vs g_es g_fs g_rs g_lid g_xyz gv ge gf gr]. fold info2.
        apply protocol_lift with (v := fun p => 1 + below (fun p => g_fs (x p)) p). intros p Hp. apply E; auto. apply protocol_lift with (v := yf). intros p Hp. apply E; auto. apply protocol_ret.
      + apply numbering_outcome. exact NU. intros p Hp. apply (part_fs _ _ (HP p Hp)). intros ? ? ? ? _ _ _ _ []. intros ? ? ? ? ? ? _ _ _ _ _ _ []. intros ? ? ? _ _ _ [].
  Qed.

  Hypothesis HFG : no_ghosts n (fun p => g_fs (x p)) (fun p => gf (x p)).
  Hypothesis HFR : forall p f, on n p -> In f (g_fs (x p)) -> 0 <= g_id (gf (x p)) f.
  Hypothesis HFS : total n (fun p => g_fs (x p)) < 2 ^ 31 - 1.
  Hypothesis HFL : forall p f, on n p -> In f (g_fs (x p)) -> few_vertices (a p) f.
  Hypothesis HRS : total n (fun p => g_rs (x p)) < 2 ^ 31 - 1.
  Lemma face_copies : forall p f q f', on n p -> on n q -> In f (g_fs (x p)) -> In f' (g_fs (x q)) -> twin_face x1 a p f q f' <-> copy_face tw a p f q f'.
  Proof.
    intros p f q f' Hp Hq Hf Hf'. destruct (part_fs _ _ (HP p Hp)) as (_ & F1). destruct (F1 f Hf) as (_ & I). destruct (part_fs _ _ (HP q Hq)) as (_ & F2). destruct (F2 f' Hf') as (_ & I').
    unfold twin_face, copy_face, x1. cbn [set_gv gv]. split.
    - intros T. split.
      + intros v Hv. destruct (T (g_id (yv p) v)) as (T1 & _). destruct T1 as (w & W & E). eauto. exists w. split; auto. apply same_v; auto.
      + intros w Hw. destruct (T (g_id (yv q) w)) as (_ & T1). destruct T1 as (v & V & E). eauto. exists v. split; auto. apply same_v; auto.
    - intros (T1 & T2) g. split.
      + intros (v & V & E). destruct (T1 v V) as (w & W & Q). exists w. split; auto. rewrite <- E. symmetry. apply same_v; auto.
      + intros (w & W & E). destruct (T2 w W) as (v & V & Q). exists v. split; auto. rewrite <- E. apply same_v; auto.
  Qed.
  Lemma volume : exists ye yf yr,
    (forall lo, protocol n lo (lo + 18) (fun p => MESH_AssignGlobalIDs (junk p) n p 3 h (x p)) (fun p => final (x p) (yv p) (ye p) (yf p) (yr p))) /\
    outcome n (fun p => g_es (x p)) (copy_edge tw a) (fun p => ge (x p)) ye /\
    (forall p e, on n p -> In e (g_es (x p)) -> g_bd (ye p) e = true <-> g_bd (ge (x p)) e = true \/ (1 <= p /\ exists q e', on n q /\ q <> p /\ In e' (g_es (x q)) /\ copy_edge tw a p e q e')) /\
    outcome n (fun p => g_fs (x p)) (copy_face tw a) (fun p => gf (x p)) yf /\
    (forall p f, on n p -> In f (g_fs (x p)) -> g_bd (yf p) f = true <-> g_bd (gf (x p)) f = true \/ (exists q f', on n q /\ q <> p /\ In f' (g_fs (x q)) /\ copy_face tw a p f q f')) /\
    outcome n (fun p => g_rs (x p)) no_twin (fun p => interior (gr (x p))) yr.
  Proof.
    destruct edges_done as (ye & P & O & BD). set (x2 := fun p => set_ge (x1 p) (ye p)).
    assert (HP2 : forall p, on n p -> part (x2 p) (a p)) by (intros p Hp; apply part_ge, part_gv, HP; auto).
    assert (HI2 : vertex_ids n x2). { destruct (ids_of n x yv tw HVN HVS HVR) as [A B C]. constructor; [exact A|exact B|exact C]. }
    destruct (face_stage N x2 a (fun p => junk p 2)) as (yf & gi & PF & NF & BF & GF); auto.
    destruct (elements_stage n (fun p => g_rs (x p)) (fun p => gr (x p)) 4 gi) as (yr & E & NU & _).
    - intros p Hp. apply (part_rs _ _ (HP p Hp)).
    - auto.
    - intros j Hj. apply GF; auto.
    - exists ye, yf, yr. split; [|split; [exact O|split; [exact BD|split; [|split]]]].
      + intros lo. unfold MESH_AssignGlobalIDs. apply (protocol_bind _ _ n lo (lo + 6) (lo + 18) _ x1 (fun p z => pbind (MESH_AssignGlobalIDs_Edge (junk p 1) n p z) (fun z => if 3 =? 3 then MESH_AssignGlobalIDs_Region (junk p 2) n p z else if 3 =? 2 then MESH_AssignGlobalIDs_Face p z else Fail))). lia. apply HVP.
        apply (protocol_bind _ _ n (lo + 6) (lo + 12) (lo + 18) _ x2 (fun p z => if 3 =? 3 then MESH_AssignGlobalIDs_Region (junk p 2) n p z else if 3 =? 2 then MESH_AssignGlobalIDs_Face p z else Fail)). lia. replace (lo + 12) with (lo + 6 + 6) by lia. apply P.
        change (3 =? 3) with true. cbv iota. unfold MESH_AssignGlobalIDs_Region. apply protocol_lift with (v := fc x2). intros p Hp. apply (fc_ok N x2 a HP2 HFL p Hp).
        match goal with |- protocol _ _ _ (fun p => pbind (@?A p) (@?B p)) _ => apply (protocol_bind _ _ n (lo + 12) (lo + 18) (lo + 18) A (fun p => (yf p, gi)) B) end. lia. replace (lo + 18) with (lo + 12 + 6) by lia. apply PF.
        cbn [fst snd]. cbv zeta. apply protocol_lift with (v := fun p => 1 + below (fun p => g_rs (x p)) p). intros p Hp. apply E; auto. apply protocol_lift with (v := yr). intros p Hp. apply E; auto. apply protocol_ret.
      + assert (OF : outcome n (fun p => g_fs (x p)) (twin_face x1 a) (fun p => gf (x p)) yf).
        { apply numbering_outcome. exact NF. intros p Hp. apply (part_fs _ _ (HP p Hp)).
          - intros p f q f' Hp Hq Hf Hf' T g. symmetry. apply T.
          - intros p f q f' r f'' Hp Hq Hr Hf Hf' Hf'' T T' g. rewrite (T g). apply T'.
          - intros p f f' Hp Hf Hf' T. rewrite face_copies in T by auto. apply (part_fs1 _ _ (HP p Hp) f f'); auto. destruct T as (T1 & T2). intros v. split; intros Hv.
            + destruct (T1 v Hv) as (w & W & [(_ & Q)|(Q & _)]); congruence.
            + destruct (T2 v Hv) as (w & W & [(_ & Q)|(Q & _)]); congruence. }
        apply (outcome_ext _ _ _ _ _ _ OF). intros; apply face_copies; auto.
      + intros p f Hp Hf. rewrite (BF p f Hp Hf). unfold x2, x1. cbn [set_gv set_ge gf g_fs]. split; (intros [H|(q & f' & Hq & Nq & Hf' & T)]; [auto|right; exists q, f'; split; auto; split; auto; split; auto; apply face_copies; auto]).
      + apply numbering_outcome. exact NU. intros p Hp. apply (part_rs _ _ (HP p Hp)). intros ? ? ? ? _ _ _ _ []. intros ? ? ? ? ? ? _ _ _ _ _ _ []. intros ? ? ? _ _ _ [].
  Qed.
End Rest.
