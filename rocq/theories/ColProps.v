(** C52: columns of cells stay in one part (FixColumnPartitions.c). *)
From Coq Require Import ZArith Bool Floats.SpecFloat List Lia Arith ZifyBool ZifyNat.
From Verif Require Import Base BaseProofs ListSpec CompareModel AttModel TopoModel TopoSpec TopoProofs TopoProofs2 TopoProofs3 TopoProofs4 TopoProps TopoProps2 CheckProps LabelProps ModProofs ParModel ParProps ExchProofs BuildProofs3 FileModel FileSpec SendModel SendSpec PartSpec PartProps ColModel ColSpec ColProofs.
Import ListNotations.
Open Scope Z_scope.

(** A mesh of regions whose IDs are their positions, and an array of parts. *)
Definition with_parts (s : smesh) (a : amesh) (part : list Z) : Prop := partable s a /\ numbered (sm_m s) /\ length part = length (skind s 3).
Definition facing (s : smesh) (r u d : ptr) : Prop := UpDownFaces (sm_m s) r = Ok (u, d).

Lemma part_get : forall s part r, numbered (sm_m s) -> length part = length (skind s 3) -> In r (skind s 3) -> part_of (sm_m s) part r = Some (get (sm_m s) part r).
Proof. intros s part r NU L H. unfold part_of, get, pos. apply nth_error_nth'. rewrite L. apply In_nth_error in H. destruct H as [i E]. pose proof (NU _ _ E). assert (i < length (skind s 3))%nat by (apply nth_error_Some; congruence). lia. Qed.

(** The part of every cell of a column becomes that of the topmost one; cells in no column keep
    theirs. *)
Theorem C52_columns : forall s a part part', with_parts s a part -> FixColumnPartitions (sm_m s) part = Ok part' ->
  length part' = length part /\
  (forall t r, In t (skind s 3) -> topmost a (facing s) t -> column a (facing s) t r -> part_of (sm_m s) part' r = part_of (sm_m s) part t) /\
  (forall r, In r (skind s 3) -> (forall t, In t (skind s 3) -> topmost a (facing s) t -> ~ column a (facing s) t r) -> part_of (sm_m s) part' r = part_of (sm_m s) part r).
Proof.
  intros s a part part' (P & NU & LP) E. pose proof (pa_reach _ _ P) as RE. pose proof (pa_r _ _ P) as LR. pose proof (pa_regions _ _ P) as RF. pose proof (pa_nd _ _ P 3) as ND.
  destruct (fix_inv (sm_m s) a RE LR ND NU RF part LP part' E) as (L & T & I & TT). split; [exact (eq_trans L (eq_sym LP))|]. change (ends (sm_m s)) with (facing s) in *. split.
  - intros t r Ht TM C. assert (Hr : In r (skind s 3)) by (eapply (column_in (sm_m s) a); eauto). rewrite !part_get by auto. f_equal.
    assert (TR : get (sm_m s) T r <> 0). { clear Hr. induction C as [|r r' C IH B]; [auto|]. eapply (v_down _ _ _ _ _ I); [|exact IH|exact B]. eapply (column_in (sm_m s) a); eauto. }
    destruct (v_old _ _ _ _ _ I r Hr TR) as (t' & Ht' & TM' & C' & G). rewrite G. f_equal. eapply (column_unique (sm_m s) a); eauto.
  - intros r Hr NC. rewrite !part_get by auto. f_equal. destruct (Z.eq_dec (get (sm_m s) T r) 0) as [Z0|Z0]; [apply (v_new _ _ _ _ _ I); auto|]. exfalso. destruct (v_old _ _ _ _ _ I r Hr Z0) as (t & Ht & TM & C & _). eapply NC; eauto.
Qed.
Print Assumptions C52_columns.

(** In a mesh of columns it succeeds and no column is cut. *)
Theorem C52_columnar : forall s a part level, with_parts s a part -> columnar a (facing s) (skind s 3) level ->
  exists part', FixColumnPartitions (sm_m s) part = Ok part' /\
    (forall r, In r (skind s 3) -> exists t, In t (skind s 3) /\ topmost a (facing s) t /\ column a (facing s) t r /\ part_of (sm_m s) part' r = part_of (sm_m s) part t) /\
    (forall r u d r', In r (skind s 3) -> facing s r u d -> on_face a r' d -> part_of (sm_m s) part' r' = part_of (sm_m s) part' r).
Proof.
  intros s a part level (P & NU & LP) CM. pose proof (pa_reach _ _ P) as RE. pose proof (pa_r _ _ P) as LR. pose proof (pa_regions _ _ P) as RF. pose proof (pa_nd _ _ P 3) as ND.
  assert (X : exists part', FixColumnPartitions (sm_m s) part = Ok part').
  { destruct (columns_run (sm_m s) a RE LR ND NU RF part LP level CM (fm_r (sm_m s)) part (repeat 0 (length (fm_r (sm_m s))))) as (P' & T' & E); [apply (inv_start (sm_m s) a RE LR ND NU RF part LP)|apply incl_refl|exact ND| |].
    - intros r Hr N. exfalso. apply N. unfold get. apply nth_repeat.
    - unfold FixColumnPartitions. rewrite E. destruct (fm_r (sm_m s)); cbn [bind]; eauto. }
  destruct X as (part' & E). exists part'. split; auto. destruct (C52_columns s a part part' (conj P (conj NU LP)) E) as (L & A & _).
  assert (B : forall r, In r (skind s 3) -> exists t, In t (skind s 3) /\ topmost a (facing s) t /\ column a (facing s) t r /\ part_of (sm_m s) part' r = part_of (sm_m s) part t).
  { intros r Hr. destruct (in_column (sm_m s) a RE LR ND NU RF part LP level CM r Hr) as (t & Ht & TM & C). exists t. auto. }
  split; auto. intros r u d r' Hr F O. destruct (Z.eq_dec r' r) as [->|N]; auto. destruct (cm_down _ _ _ _ CM r u d r' Hr F O N) as [(d' & F') _]. destruct (B r Hr) as (t & Ht & TM & C & ->). apply A; auto. eapply col_next; [exact C|]. exists u, d, d'. auto.
Qed.
Print Assumptions C52_columnar.

(** For every mesh of regions with closed faces it ends, with a result or an error. *)
Theorem C52_ends : forall s a part, with_parts s a part -> (forall f, In f (skind s 2) -> good_face a f) -> (forall r, a_r a r <> Some (true, Some [])) ->
  (exists part', FixColumnPartitions (sm_m s) part = Ok part') \/ FixColumnPartitions (sm_m s) part = Fatal.
Proof.
  intros s a part (P & NU & LP) GF NR. pose proof (pa_reach _ _ P) as RE. pose proof (pa_r _ _ P) as LR. pose proof (pa_regions _ _ P) as RF. pose proof (pa_nd _ _ P 3) as ND. pose proof (reach_inv _ _ RE) as I.
  assert (CO : forall f, In f (skind s 2) -> exists l, MF_Coords (sm_m s) f = Ok l).
  { intros f Hf. destruct (loop_verts (sm_t s) a f true RE (GF f Hf)) as (vs & E & _ & IV). change (b2z true) with 1 in E. unfold MF_Coords. change (fm_t (sm_m s)) with (sm_t s). rewrite E. cbn [bind].
    assert (LV : (length vs <= 30)%nat). { destruct (GF f Hf) as (b & u & Eb & Pb & _). pose proof (pa_loops _ _ P _ _ Eb) as LB. destruct (C23_face_loop (sm_t s) a f b u true NULL RE Eb Pb) as (A & _). destruct (A eq_refl) as (vs' & E' & _ & AR). change (b2z true) with 1 in E'. rewrite E in E'. inversion E'. subst vs'. apply around_vat in AR. rewrite AR, map_length. exact LB. }
    eexists. apply (mapM_ok _ _ _ (fun i => fm_x (sm_m s) (nth (Z.to_nat i) vs NULL))). intros i Hi. apply zrange_In in Hi. unfold ZL in Hi. unfold lent. replace (i <? 0) with false by lia. cbn [bind]. unfold MAXPV2. replace (30 <=? i) with false by lia.
    assert (HV : In (nth (Z.to_nat i) vs NULL) vs) by (apply nth_In; lia). apply IV in HV. destruct HV as (e & _ & v0 & v1 & Ev & HV). destruct (pa_ends _ _ P _ _ _ Ev) as [N0 N1]. destruct (w_ends _ (i_w _ _ I) _ _ _ Ev) as [[W0|W0] [W1|W1]]; try contradiction.
    assert (LVV : live_v a (nth (Z.to_nat i) vs NULL)) by (destruct HV as [<-|<-]; auto). unfold live_v in LVV. rewrite <- (i_v _ _ I) in LVV. unfold getv. change (sm_t s) with (fm_t (sm_m s)) in *. destruct (tvs (fm_t (sm_m s)) (nth (Z.to_nat i) vs NULL)); [reflexivity|discriminate]. }
  assert (SI : forall f, In f (skind s 2) -> exists b, IsSideFace (sm_m s) f = Ok b) by (intros f Hf; unfold IsSideFace; destruct (CO f Hf) as (l & ->); cbn [bind]; eauto).
  assert (TE : forall l up, l <> [] -> incl l (skind s 2) -> fine (two_ends (sm_m s) up l)).
  { induction l as [|f l IH]; intros up NL HL; [contradiction|]. cbn [two_ends]. destruct (SI f) as (b & ->); [apply HL; cbn; auto|]. cbn [bind]. assert (Y : forall up', fine match l with [] => Fatal | _ => two_ends (sm_m s) up' l end) by (intro up'; destruct l as [|y l]; [exact Logic.I|]; apply IH; [discriminate|intros x Hx; apply HL; cbn in *; auto]). destruct b; [apply Y|]. destruct up; [exact Logic.I|apply Y]. }
  assert (UF : forall r, In r (fm_r (sm_m s)) -> fine (UpDownFaces (sm_m s) r)).
  { intros r Hr. destruct (full (sm_m s) a RE LR ND NU RF r Hr) as (b & Eb). destruct (region_faces (sm_m s) a RE LR ND NU r Hr (ex_intro _ b Eb)) as (l & El & Hl). unfold UpDownFaces. rewrite El. cbn [bind].
    assert (HL : incl l (skind s 2)). { intros f Hf. apply Hl in Hf. destruct Hf as (d & b' & E' & Hf). apply (pa_f _ _ P). rewrite Eb in E'. inversion E'. subst b'. pose proof (w_rf _ (i_w _ _ I) _ _ Eb) as W. rewrite Forall_forall in W. destruct (W _ Hf) as (y & Hy). eexists. eauto. }
    assert (NL : l <> []). { intros ->. destruct b as [|[f d] b]; [eapply NR; eauto|]. apply (proj2 (Hl f)). exists d, ((f, d) :: b). cbn. auto. }
    pose proof (TE l None NL HL) as FT. destruct (two_ends (sm_m s) None l) as [[u d]| | |] eqn:ET; try exact FT. cbn [bind]. apply (two_ends_in (sm_m s) a RE LR ND NU) in ET. destruct ET as [[X|HU] HD]; [discriminate|]. destruct (CO u (HL _ HU)) as (lu & ->). destruct (CO d (HL _ HD)) as (ld & ->). cbn [bind]. destruct (_ || _); [exact Logic.I|]. destruct (SFltb _ _); [exact Logic.I|]. destruct (SFltb _ _); exact Logic.I. }
  pose proof (columns_fine (sm_m s) a RE LR ND NU RF part LP UF (fm_r (sm_m s)) part (repeat 0 (length (fm_r (sm_m s)))) (inv_start (sm_m s) a RE LR ND NU RF part LP) (incl_refl _)) as F. unfold FixColumnPartitions.
  destruct (fm_r (sm_m s)) as [|r0 l0]; [left; eauto|]. destruct (foldM _ _ _); try contradiction; cbn [bind]; eauto.
Qed.
Print Assumptions C52_ends.

(** What the faces above and below are: [turns] are the corners of a loop, each with the one before
    and the one after. *)
Notation point := (spec_float * spec_float * spec_float)%type.
Fixpoint turns (p : point) (l : list point) (first : point) : list (point * point * point) :=
  match l with
  | [] => []
  | q :: l' => (p, q, hd first l') :: turns q l' first
  end.
Definition xof (p : point) : spec_float := fst (fst p).
Definition yof (p : point) : spec_float := snd (fst p).
Notation "x +f y" := (SFadd 53 1024 x y) (at level 50, left associativity).
Notation "x -f y" := (SFsub 53 1024 x y) (at level 50, left associativity).
Notation "x *f y" := (SFmul 53 1024 x y) (at level 40, left associativity).
Notation "x /f y" := (SFdiv 53 1024 x y) (at level 40, left associativity).
Definition sum (l : list spec_float) : spec_float := fold_left (fun x y => x +f y) l (S754_zero false).
(** The area of the shadow on the xy plane, and whether it is nothing (below 1e-12 = 4951760157141521 / 2^92). *)
Definition shadow (l : list point) : spec_float :=
  sum (map (fun x => let '(p, q, r) := x in (yof q -f yof p) *f (xof r -f xof q) -f (yof r -f yof q) *f (xof q -f xof p)) (turns (last l origin) l (hd origin l))).
Definition tol : spec_float := binary_normalize 53 1024 4951760157141521 (-92) false.
Definition upright (l : list point) : bool := SFltb (SFabs (shadow l /f binary_normalize 53 1024 (Z.of_nat (length l)) 0 false)) tol.
Definition apart (x y : spec_float) : bool := let b := SFabs x in let one := binary_normalize 53 1024 1 0 false in SFltb tol (SFabs (x -f y) /f (if SFltb one b then b else one)).
Definition loop_at (s : smesh) (f : ptr) (l : list point) : Prop := exists vs, MF_Vertices (sm_t s) f 1 NULL = Ok vs /\ l = map (fm_x (sm_m s)) vs.
(** [f] and [g] are the first two faces of the cell with a shadow. *)
Definition first_two (s : smesh) (l : list ptr) (f g : ptr) : Prop := exists l1 l2 l3, l = l1 ++ f :: l2 ++ g :: l3 /\
  (forall h, In h (l1 ++ l2) -> exists c, loop_at s h c /\ upright c = true) /\ forall h, h = f \/ h = g -> exists c, loop_at s h c /\ upright c = false.

Lemma turns_length : forall l p f, length (turns p l f) = length l.
Proof. induction l; intros; cbn; auto. Qed.
Lemma turns_nth : forall l p f i, (i < length l)%nat -> nth i (turns p l f) (origin, origin, origin) = (match i with O => p | S k => nth k l origin end, nth i l origin, match (S i =? length l)%nat with true => f | false => nth (S i) l origin end).
Proof.
  induction l as [|q l IH]; intros p f i Hi; [cbn in Hi; lia|]. destruct i as [|i].
  - cbn [turns nth]. destruct l as [|r l]; reflexivity.
  - cbn [turns nth]. cbn in Hi. rewrite IH by lia. cbn [length nth]. destruct i; reflexivity.
Qed.
Lemma fold_map : forall A B C (f : B -> C -> B) (g : A -> C) l b, fold_left (fun z x => f z (g x)) l b = fold_left f (map g l) b.
Proof. intros A B C f g. induction l; intro b; cbn; auto. Qed.
Lemma nth_map_zrange : forall A (g : Z -> A) n i d, (i < n)%nat -> nth i (map g (zrange 0 (Z.of_nat n))) d = g (Z.of_nat i).
Proof. intros A g n i d H. rewrite (nth_indep _ d (g 0)) by (rewrite map_length, zrange_length; lia). rewrite map_nth. replace (Z.of_nat n) with (0 + Z.of_nat n) by lia. rewrite zrange_nth by lia. f_equal. Qed.
Lemma upright_ok : forall s f l, MF_Coords (sm_m s) f = Ok l -> IsSideFace (sm_m s) f = Ok (upright l).
Proof.
  intros s f l E. unfold IsSideFace. rewrite E. cbn [bind]. f_equal. unfold upright. change tol with tol12. f_equal. f_equal. unfold fdiv, of_int. f_equal. unfold shadow, sum. change fzero with (S754_zero false).
  rewrite <- fold_map. remember (Z.of_nat (length l)) as n eqn:HN.
  assert (X : turns (last l origin) l (hd origin l) = map (fun j => (nth (Z.to_nat (if j =? 0 then n - 1 else j - 1)) l origin, nth (Z.to_nat j) l origin, nth (Z.to_nat (if j =? n - 1 then 0 else j + 1)) l origin)) (zrange 0 n)).
  { apply (nth_ext _ _ (origin, origin, origin) (origin, origin, origin)); [rewrite turns_length, map_length, zrange_length; lia|]. intros i Hi. rewrite turns_length in Hi. rewrite turns_nth by auto.
    rewrite HN. rewrite nth_map_zrange by auto. rewrite <- HN. rewrite Nat2Z.id. f_equal; [f_equal|].
    - destruct i as [|i]; [change (Z.of_nat 0 =? 0) with true; cbv iota|replace (Z.of_nat (S i) =? 0) with false by lia; f_equal; lia]. replace (Z.to_nat (n - 1)) with (pred (length l)) by lia. clear. induction l as [|x l IH]; [reflexivity|]. destruct l; [reflexivity|]. exact IH.
    - rewrite HN. destruct (Nat.eqb_spec (S i) (length l)) as [Q|Q]; [replace (Z.of_nat i =? Z.of_nat (length l) - 1) with true by lia; destruct l; reflexivity|replace (Z.of_nat i =? Z.of_nat (length l) - 1) with false by lia; f_equal; lia]. }
  rewrite X. rewrite <- fold_map. reflexivity.
Qed.
Lemma coords_at : forall s f l, MF_Coords (sm_m s) f = Ok l -> loop_at s f l.
Proof.
  intros s f l E. unfold MF_Coords in E. change (fm_t (sm_m s)) with (sm_t s) in E. unfold loop_at. destruct (MF_Vertices (sm_t s) f 1 NULL) as [vs| | |]; try discriminate. cbn [bind] in E. exists vs. split; auto. destruct (mapM_nth _ _ _ 0 origin _ _ E) as [L X]. rewrite zrange_length in L, X. unfold ZL in *. apply (nth_ext _ _ origin (fm_x (sm_m s) NULL)); [rewrite map_length; lia|]. intros n Hn. specialize (X n ltac:(lia)). replace (Z.of_nat (length vs)) with (0 + Z.of_nat (length vs)) in X by lia. rewrite zrange_nth in X by lia. rewrite map_nth. unfold lent in X. replace (0 + Z.of_nat n <? 0) with false in X by lia. cbn [bind] in X. replace (Z.to_nat (0 + Z.of_nat n)) with n in X by lia. destruct (MAXPV2 <=? _); [discriminate|]. destruct (getv _ _); try discriminate. cbn [bind] in X. inversion X. reflexivity.
Qed.
Lemma side_at : forall s f b, IsSideFace (sm_m s) f = Ok b -> exists c, loop_at s f c /\ upright c = b.
Proof. intros s f b E. destruct (MF_Coords (sm_m s) f) as [c| | |] eqn:EC; [|unfold IsSideFace in E; rewrite EC in E; discriminate E..]. rewrite (upright_ok _ _ _ EC) in E. exists c. split; [apply coords_at; auto|congruence]. Qed.
Lemma two_ends_first : forall s l up u d, two_ends (sm_m s) up l = Ok (u, d) -> match up with
  | None => first_two s l u d
  | Some f => f = u /\ exists l2 l3, l = l2 ++ d :: l3 /\ (forall h, In h l2 -> exists c, loop_at s h c /\ upright c = true) /\ exists c, loop_at s d c /\ upright c = false
  end.
Proof.
  induction l as [|f l IH]; intros up u d E; [discriminate|]. cbn [two_ends] in E. destruct (IsSideFace (sm_m s) f) as [b| | |] eqn:EB; try discriminate. cbn [bind] in E. apply side_at in EB.
  assert (X : forall up', match l with [] => Fatal | _ => two_ends (sm_m s) up' l end = Ok (u, d) -> two_ends (sm_m s) up' l = Ok (u, d)) by (intros up' X; destruct l; [discriminate X|exact X]).
  destruct b; [|destruct up as [w|]].
  - apply X, IH in E. destruct up as [w|].
    + destruct E as (-> & l2 & l3 & -> & A & B). split; auto. exists (f :: l2), l3. split; auto. split; auto. intros h [<-|H]; auto.
    + destruct E as (l1 & l2 & l3 & -> & A & B). exists (f :: l1), l2, l3. split; auto. split; auto. intros h [<-|H]; auto.
  - inversion E. subst. split; auto. exists [], l. split; auto. split; auto. intros h [].
  - apply X, IH in E. destruct E as (-> & l2 & l3 & -> & A & B). exists [], l2, l3. split; auto. split; auto. intros h [-> | ->]; auto.
Qed.
(** The faces above and below are the first two faces of the cell with a shadow; their centres are above
    each other and the z of the upper one is larger. *)
Theorem C52_facing : forall s a r u d, partable s a -> numbered (sm_m s) -> In r (skind s 3) -> facing s r u d ->
  on_face a r u /\ on_face a r d /\ (exists fs, MR_Faces (sm_t s) r = Ok fs /\ (first_two s fs u d \/ first_two s fs d u)) /\
  exists lu ld, loop_at s u lu /\ loop_at s d ld /\
    ((SFltb (sum (map snd ld) +f tol) (sum (map snd lu)) = true /\ apart (sum (map xof lu)) (sum (map xof ld)) = false /\ apart (sum (map yof lu)) (sum (map yof ld)) = false) \/
     (SFltb (sum (map snd ld)) (sum (map snd lu) -f tol) = true /\ apart (sum (map xof ld)) (sum (map xof lu)) = false /\ apart (sum (map yof ld)) (sum (map yof lu)) = false)).
Proof.
  intros s a r u d P NU Hr F. pose proof (pa_reach _ _ P) as RE. pose proof (pa_r _ _ P) as LR. pose proof (pa_regions _ _ P) as RF. pose proof (pa_nd _ _ P 3) as ND.
  destruct (ends_on (sm_m s) a RE LR ND NU RF r u d Hr F) as [A B]. split; auto. split; auto.
  assert (G : forall l c, fold_left (fun c p => (fadd (cx c) (cx p), fadd (cy c) (cy p), fadd (cz c) (cz p))) l c = (fold_left (fun x y => x +f y) (map xof l) (cx c), fold_left (fun x y => x +f y) (map yof l) (cy c), fold_left (fun x y => x +f y) (map snd l) (cz c))) by (induction l as [|p l IH]; intros [[x y] z]; cbn [fold_left map]; [reflexivity|rewrite IH; reflexivity]).
  assert (ZS : forall l, sums l = (sum (map xof l), sum (map yof l), sum (map snd l))) by (intro l; unfold sums; rewrite G; reflexivity).
  unfold facing, UpDownFaces in F. change (fm_t (sm_m s)) with (sm_t s) in F. destruct (MR_Faces (sm_t s) r) as [l| | |] eqn:EF; try discriminate. cbn [bind] in F. destruct (two_ends _ _ l) as [[u0 d0]| | |] eqn:ET; try discriminate. cbn [bind] in F. apply two_ends_first in ET.
  destruct (MF_Coords _ u0) as [lu| | |] eqn:EU; try discriminate. cbn [bind] in F. destruct (MF_Coords _ d0) as [ld| | |] eqn:ED; try discriminate. cbn [bind] in F. rewrite !ZS in F. cbn [cx cy cz fst snd] in F. apply coords_at in EU. apply coords_at in ED.
  change differ with apart in F. destruct (apart (sum (map xof lu)) _) eqn:D1; [discriminate|]. destruct (apart (sum (map yof lu)) _) eqn:D2; [discriminate|]. cbn [orb] in F. change tol12 with tol in F. unfold f64sub, fadd in F.
  destruct (SFltb (sum (map snd lu)) _) eqn:E1.
  - inversion F. subst. split; [exists l; auto|]. exists ld, lu. split; [auto|]. split; [auto|]. right. auto.
  - destruct (SFltb _ (sum (map snd lu))) eqn:E2; [|discriminate]. inversion F. subst. split; [exists l; auto|]. exists lu, ld. split; [auto|]. split; [auto|]. left. auto.
Qed.
Print Assumptions C52_facing.

(** ** A square of two triangles, two layers of prisms *)
Definition hedge (l k : Z) : ptr := 13 + 5 * l + k.      (* 0-1, 1-2, 2-3, 3-0, 0-2 *)
Definition vedge (g i : Z) : ptr := 28 + 4 * g + i.
Definition hface (l k : Z) : ptr := 36 + 2 * l + k.
Definition vface (g k : Z) : ptr := 42 + 5 * g + k.
Definition foot (k : Z) : Z := if k =? 4 then 0 else k.
Definition head (k : Z) : Z := if k =? 4 then 2 else (k + 1) mod 4.
Definition prisms : list top :=
  repeat TNewV 12 ++
  concat (map (fun l => concat (map (fun k => [TNewE; TSetVertex (hedge l k) false (4 * l + foot k + 1); TSetVertex (hedge l k) true (4 * l + head k + 1)]) (zrange 0 5))) (zrange 0 3)) ++
  concat (map (fun g => concat (map (fun i => [TNewE; TSetVertex (vedge g i) false (4 * g + i + 1); TSetVertex (vedge g i) true (4 * g + i + 5)]) (zrange 0 4))) (zrange 0 2)) ++
  concat (map (fun l => [TNewF; TSetEdges (hface l 0) [(hedge l 0, true); (hedge l 1, true); (hedge l 4, false)]; TNewF; TSetEdges (hface l 1) [(hedge l 4, true); (hedge l 2, true); (hedge l 3, true)]]) (zrange 0 3)) ++
  concat (map (fun g => concat (map (fun k => [TNewF; TSetEdges (vface g k) [(hedge g k, true); (vedge g (head k), true); (hedge (g + 1) k, false); (vedge g (foot k), false)]]) (zrange 0 5))) (zrange 0 2)) ++
  concat (map (fun g => [TNewR; TSetFaces (52 + 2 * g) [(vface g 0, true); (hface g 0, false); (vface g 1, true); (vface g 4, false); (hface (g + 1) 0, true)];
                         TNewR; TSetFaces (53 + 2 * g) [(hface (g + 1) 1, true); (vface g 4, true); (vface g 2, true); (vface g 3, true); (hface g 1, false)]]) (zrange 0 2)).
Definition corner (w : spec_float) (p : ptr) : spec_float * spec_float * spec_float :=
  let i := (p - 1) mod 4 in
  (fmul w (of_int (if (i =? 1) || (i =? 2) then 1 else 0)), fmul w (of_int (if 2 <=? i then 1 else 0)), fmul w (of_int ((p - 1) / 4))).
Definition prism_mesh (w : spec_float) : smesh :=
  mkSM (mkFM (tget prisms) (fun p => (p mod 4, p)) (corner w) (fun p => if 52 <=? p then p - 51 else p) (zrange 1 13) (zrange 13 36) (zrange 36 52) [52; 53; 54; 55] []) clean [].
Definition prism_a : amesh := arun amesh0 prisms.
Lemma prism_reach : reach (tget prisms) prism_a.
Proof. apply (reach_tget prisms). vm_compute. reflexivity. Qed.
Lemma prism_ok : forall w part, length part = 4%nat -> with_parts (prism_mesh w) prism_a part.
Proof.
  intros w part L. split; [apply partableb_ok; [apply prism_reach|vm_compute; reflexivity]|]. split; [|exact L]. intros i r H. do 4 (destruct i as [|i]; [inversion H; reflexivity|]). destruct i; discriminate H.
Qed.
Definition faces_of (a : amesh) (r : ptr) : list ptr := match a_r a r with Some (_, Some b) => map fst b | _ => [] end.
Definition columnarb (s : smesh) (a : amesh) (level : ptr -> nat) : bool :=
  forallb (fun r => match UpDownFaces (sm_m s) r with
    | Ok (u, d) => forallb (fun r' => (r' =? r) || match UpDownFaces (sm_m s) r' with
        | Ok (u', d') => (negb (inb d (faces_of a r')) || ((u' =? d) && (level r' =? S (level r))%nat)) && (negb (inb u (faces_of a r')) || (d' =? u))
        | _ => false end) (skind s 3)
    | _ => false end) (skind s 3).
Lemma on_faces_of : forall a r f, on_face a r f -> inb f (faces_of a r) = true.
Proof. intros a r f (d & b & E & H). unfold faces_of. rewrite E. apply inb_ok. apply in_map_iff. exists (f, d). auto. Qed.
Lemma columnarb_ok : forall s a level, partable s a -> columnarb s a level = true -> columnar a (facing s) (skind s 3) level.
Proof.
  intros s a level P H. unfold columnarb in H. rewrite forallb_forall in H.
  assert (LV : forall r f, on_face a r f -> In r (skind s 3)) by (intros r f (d & b & E & _); apply (pa_r _ _ P); eexists; eauto).
  constructor.
  - intros r Hr. specialize (H r Hr). unfold facing. destruct (UpDownFaces (sm_m s) r) as [[u d]| | |]; try discriminate. eauto.
  - intros r u d r' Hr F O N. specialize (H r Hr). unfold facing in *. rewrite F in H. rewrite forallb_forall in H. specialize (H r' (LV _ _ O)). apply orb_prop in H. destruct H as [H|H]; [lia|]. destruct (UpDownFaces (sm_m s) r') as [[u' d']| | |]; try discriminate. rewrite (on_faces_of _ _ _ O) in H. cbn [negb orb] in H. apply andb_prop in H. destruct H as [H _]. apply andb_prop in H. destruct H as [H1 H2]. apply Z.eqb_eq in H1. apply Nat.eqb_eq in H2. subst. eauto.
  - intros r u d r' Hr F O N. specialize (H r Hr). unfold facing in *. rewrite F in H. rewrite forallb_forall in H. specialize (H r' (LV _ _ O)). apply orb_prop in H. destruct H as [H|H]; [lia|]. destruct (UpDownFaces (sm_m s) r') as [[u' d']| | |]; try discriminate. rewrite (on_faces_of _ _ _ O) in H. apply andb_prop in H. destruct H as [_ H]. cbn [negb orb] in H. apply Z.eqb_eq in H. subst. eauto.
Qed.
Definition prism_level (r : ptr) : nat := if r <? 54 then 1 else 0.
Definition one : spec_float := of_int 1.
Lemma prism_columnar : columnar prism_a (facing (prism_mesh one)) (skind (prism_mesh one) 3) prism_level.
Proof. apply columnarb_ok; [apply (prism_ok one [0; 0; 0; 0] eq_refl)|vm_compute; reflexivity]. Qed.

(** Both columns are cut; the parts of the upper cells win. *)
Example C52_columnar_ex : with_parts (prism_mesh one) prism_a [1; 0; 0; 1] /\ columnar prism_a (facing (prism_mesh one)) (skind (prism_mesh one) 3) prism_level /\
  FixColumnPartitions (sm_m (prism_mesh one)) [1; 0; 0; 1] = Ok [0; 1; 0; 1].
Proof. split; [apply prism_ok; reflexivity|]. split; [apply prism_columnar|vm_compute; reflexivity]. Qed.
Example C52_columns_ex : with_parts (prism_mesh one) prism_a [7; 0; 3; 0] /\ FixColumnPartitions (sm_m (prism_mesh one)) [7; 0; 3; 0] = Ok [3; 0; 3; 0] /\
  topmost prism_a (facing (prism_mesh one)) 54 /\ column prism_a (facing (prism_mesh one)) 54 52.
Proof.
  split; [apply prism_ok; reflexivity|]. split; [vm_compute; reflexivity|].
  assert (P : partable (prism_mesh one) prism_a) by (apply (prism_ok one [0; 0; 0; 0] eq_refl)).
  assert (E54 : facing (prism_mesh one) 54 40 38) by (vm_compute; reflexivity). assert (E52 : facing (prism_mesh one) 52 38 36) by (vm_compute; reflexivity).
  split.
  - exists 40, 38. split; auto. intros r O. assert (H : In r (skind (prism_mesh one) 3)) by (destruct O as (d & b & E & _); apply (pa_r _ _ P); eexists; eauto). apply on_faces_of in O. destruct H as [<-|[<-|[<-|[<-|[]]]]]; [vm_compute in O; discriminate|vm_compute in O; discriminate|reflexivity|vm_compute in O; discriminate].
  - apply (col_next _ _ _ 54); [apply col_top|]. exists 40, 38, 36. split; auto. split; auto. split; [|discriminate]. exists true. eexists. split; [vm_compute; reflexivity|]. cbn. intuition.
Qed.
Example C52_facing_ex : with_parts (prism_mesh one) prism_a [0; 0; 1; 1] /\ facing (prism_mesh one) 53 39 37 /\ facing (prism_mesh one) 55 41 39 /\ In 53 (skind (prism_mesh one) 3).
Proof. split; [apply prism_ok; reflexivity|]. split; [vm_compute; reflexivity|]. split; [vm_compute; reflexivity|]. cbn. auto. Qed.

Lemma prism_good : forall f, In f (zrange 36 52) -> good_face prism_a f.
Proof. intros f H. apply goodfb_ok. revert f H. apply forallb_forall. vm_compute. reflexivity. Qed.
Lemma prism_cells : forall r, a_r prism_a r <> Some (true, Some []).
Proof.
  intros r E. assert (H : In r [52; 53; 54; 55]) by (apply (pa_r _ _ (proj1 (prism_ok one [0; 0; 0; 0] eq_refl))); eexists; eauto). destruct H as [<-|[<-|[<-|[<-|[]]]]]; vm_compute in E; discriminate.
Qed.
Example C52_ends_ex : with_parts (prism_mesh one) prism_a [0; 0; 1; 1] /\ (forall f, In f (skind (prism_mesh one) 2) -> good_face prism_a f) /\ (forall r, a_r prism_a r <> Some (true, Some [])).
Proof. split; [apply prism_ok; reflexivity|]. split; [exact prism_good|exact prism_cells]. Qed.

(** Full claim: in a mesh of columns the result does not depend on the unit of length.  In the mesh
    scaled by 2^-22 every face counts as a side, and the function stops. *)
Definition small : spec_float := binary_normalize 53 1024 1 (-22) false.
Definition scaled (w : spec_float) (s s' : smesh) : Prop := sm_t s' = sm_t s /\ forall d, skind s' d = skind s d /\
  forall v, In v (skind s 0) -> forall x y z, fm_x (sm_m s) v = (x, y, z) -> fm_x (sm_m s') v = (SFmul 53 1024 w x, SFmul 53 1024 w y, SFmul 53 1024 w z).
Lemma prism_same : forall w w', sm_t (prism_mesh w) = sm_t (prism_mesh w') /\ forall d, skind (prism_mesh w) d = skind (prism_mesh w') d.
Proof. intros w w'. unfold sm_t, skind, kind, prism_mesh. cbn [sm_m fm_t fm_v fm_e fm_f fm_r]. split; [reflexivity|intro d; reflexivity]. Qed.
Definition SFeqb_struct (x y : spec_float) : bool :=
  match x, y with
  | S754_zero s, S754_zero s' => Bool.eqb s s'
  | S754_finite s m e, S754_finite s' m' e' => Bool.eqb s s' && Pos.eqb m m' && Z.eqb e e'
  | _, _ => false
  end.
Lemma struct_ok : forall x y, SFeqb_struct x y = true -> x = y.
Proof.
  intros [s|s| |s m e] [s'|s'| |s' m' e'] H; try discriminate; cbn [SFeqb_struct] in H.
  - apply eqb_prop in H. congruence.
  - apply andb_prop in H. destruct H as [H H3]. apply andb_prop in H. destruct H as [H1 H2]. apply eqb_prop in H1. apply Pos.eqb_eq in H2. apply Z.eqb_eq in H3. congruence.
Qed.
Definition same3 (w : spec_float) (v : ptr) : bool :=
  let '(x, y, z) := corner one v in let '(x', y', z') := corner w v in
  SFeqb_struct x' (SFmul 53 1024 w x) && SFeqb_struct y' (SFmul 53 1024 w y) && SFeqb_struct z' (SFmul 53 1024 w z).
Theorem C52_scale_refuted : exists s s' a part part' level, with_parts s a part /\ with_parts s' a part /\ columnar a (facing s) (skind s 3) level /\ scaled small s s' /\
  FixColumnPartitions (sm_m s) part = Ok part' /\ FixColumnPartitions (sm_m s') part = Fatal.
Proof.
  exists (prism_mesh one), (prism_mesh small), prism_a, [1; 0; 0; 1], [0; 1; 0; 1], prism_level.
  split; [apply prism_ok; reflexivity|]. split; [apply prism_ok; reflexivity|]. split; [apply prism_columnar|]. split.
  - split; [apply prism_same|]. intro d. split; [apply prism_same|]. intros v Hv x y z E. change (In v (zrange 1 13)) in Hv. change (corner one v = (x, y, z)) in E. change (corner small v = (SFmul 53 1024 small x, SFmul 53 1024 small y, SFmul 53 1024 small z)).
    assert (A : forallb (same3 small) (zrange 1 13) = true) by (vm_compute; reflexivity). rewrite forallb_forall in A. specialize (A v Hv). unfold same3 in A. rewrite E in A. destruct (corner small v) as [[x' y'] z']. apply andb_prop in A. destruct A as [A A3]. apply andb_prop in A. destruct A as [A1 A2]. apply struct_ok in A1, A2, A3. congruence.
  - split; vm_compute; reflexivity.
Qed.
Print Assumptions C52_scale_refuted.

(** Full claim: no part is left without cells (MESH_BuildPartition then gets a part of no cells). *)
Theorem C52_parts_refuted : exists s a part part' level k, with_parts s a part /\ columnar a (facing s) (skind s 3) level /\ FixColumnPartitions (sm_m s) part = Ok part' /\ In k part /\ ~ In k part'.
Proof.
  exists (prism_mesh one), prism_a, [2; 0; 1; 0], [1; 0; 1; 0], prism_level, 2. split; [apply prism_ok; reflexivity|]. split; [apply prism_columnar|]. split; [vm_compute; reflexivity|]. split; [cbn; auto|]. cbn. intuition discriminate.
Qed.
Print Assumptions C52_parts_refuted.
