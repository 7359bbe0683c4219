(** Copying the attributes and sets of a mesh. *)
From Coq Require Import ZArith Bool Ascii String Floats.SpecFloat List Lia Arith ZifyBool ZifyNat.
From Verif Require Import Base BaseProofs ListSpec AttModel AttProps TopoModel TopoSpec TopoProofs TopoProps ParModel FileModel FileSpec FileProofs4 BuildProofs3 SendModel SendSpec SendProofs SendProofs2 SendProofs3 SendProofs4 PartModel CopyModel CloneModel CloneSpec CloneProofs.
Import ListNotations.
Open Scope Z_scope.

Section Atts.
Variables (s : smesh) (ph : Z -> ptr -> ptr) (cp : ptr -> ptr).
Notation K := (skind s).
Hypothesis ND : forall d, NoDup (K d).
Hypothesis inj : forall d p d' p', In p (K d) -> In p' (K d') -> ph d p = ph d' p' -> d = d' /\ p = p'.
Hypothesis CP : forall d p, In p (K d) -> cp p = ph d p /\ cp p <> NULL.

Section One.
Variable x : attr.
Hypothesis G : good_catt s x.
Definition cval (p : ptr) : option attval := match at_type x with TPOINTER => None | _ => stored (at_val x p) end.
Lemma value_ok : forall d p, lives_on x d -> In p (K d) -> clone_value x p = Ok (cval p).
Proof using G.
  intros d p L H. pose proof (gc_val _ _ G d p) as T. unfold clone_value, cval, get_int, get_dbl, get_vec. unfold has_type in T.
  destruct (at_type x) eqn:E; auto; destruct (at_val x p) as [v|] eqn:V; auto; specialize (T v L H ltac:(discriminate) eq_refl); destruct v as [i|y|l]; try contradiction; cbn [bind stored].
  - auto.
  - destruct y; auto.
  - pose proof (mapM_rda _ [] l [] 0 (at_ncomp x) eq_refl (eq_sym T)) as M. rewrite app_nil_r in M. assert (M' : mapM (fun k => rda l k) (zrange 0 (at_ncomp x)) = Ok l) by exact M. rewrite M'. auto.
  - pose proof (mapM_rda _ [] l [] 0 (at_ncomp x) eq_refl (eq_sym T)) as M. rewrite app_nil_r in M. assert (M' : mapM (fun k => rda l k) (zrange 0 (at_ncomp x)) = Ok l) by exact M. rewrite M'. auto.
Qed.
Lemma values_ok : forall d, lives_on x d -> forall l vals, NoDup l -> (forall p, In p l -> In p (K d)) -> exists vals', clone_values x cp vals l = Ok vals' /\
  (forall p, In p l -> vals' (ph d p) = match cval p with Some v => Some v | None => vals (ph d p) end) /\ (forall q, (forall p, In p l -> ph d p <> q) -> vals' q = vals q).
Proof using All.
  intros d L. unfold clone_values. induction l as [|p l IH]; intros vals N H.
  - exists vals. cbn [foldM]. split; auto. split; auto. intros p [].
  - cbn [foldM]. rewrite (value_ok d p L) by (apply H; left; auto). cbn [bind]. inversion N as [|? ? N1 N2]; subst. destruct (CP d p) as [E1 E2]; [apply H; left; auto|].
    assert (NE : forall p', In p' l -> ph d p' <> ph d p) by (intros p' H' Q; apply inj in Q; [destruct Q as [_ ->]; contradiction|apply H; right; auto|apply H; left; auto]).
    destruct (cval p) as [v|] eqn:V.
    + assert (cp p =? NULL = false) as -> by lia. cbn [bind]. destruct (IH (zupd vals (cp p) (Some v)) N2) as (v' & A & B & C); [intros; apply H; right; auto|]. exists v'. split; [exact A|]. rewrite E1 in *. split.
      * intros p' [<- | H']; [rewrite V, C by auto; unfold zupd; rewrite Z.eqb_refl; auto|]. rewrite B by auto. unfold zupd. destruct (Z.eqb_spec (ph d p') (ph d p)) as [Q|Q]; auto. destruct (NE _ H' Q).
      * intros q Q. rewrite C by (intros; apply Q; right; auto). unfold zupd. destruct (Z.eqb_spec q (ph d p)) as [->|]; auto. destruct (Q p); auto. left. auto.
    + cbn [bind]. destruct (IH vals N2) as (v' & A & B & C); [intros; apply H; right; auto|]. exists v'. split; [exact A|]. split.
      * intros p' [<- | H']; [rewrite V, C by auto; auto|auto].
      * intros q Q. apply C. intros. apply Q. right. auto.
Qed.
(** The kinds of entities before [n] are done. *)
Definition kinds_done (n : Z) (vals : ptr -> option attval) : Prop :=
  (forall d p, d < n -> lives_on x d -> In p (K d) -> vals (ph d p) = cval p) /\ (forall q, (forall d p, d < n -> lives_on x d -> In p (K d) -> ph d p <> q) -> vals q = None).
Lemma kind_step : forall n vals, kinds_done n vals -> exists vals', (if (at_ent x =? n) || (at_ent x =? MALLTYPE) then clone_values x cp vals (K n) else Ok vals) = Ok vals' /\ kinds_done (n + 1) vals'.
Proof using All.
  intros n vals [A B]. destruct ((at_ent x =? n) || (at_ent x =? MALLTYPE)) eqn:E.
  - assert (L : lives_on x n) by (unfold lives_on; lia). destruct (values_ok n L (K n) vals (ND n)) as (v' & F & V1 & V2); auto. exists v'. split; [exact F|]. split.
    + intros d p Hd Ld Hp. destruct (Z.eq_dec d n) as [->|Nd].
      * rewrite V1 by auto. destruct (cval p) eqn:V; auto. apply B. intros d p' Hd' L' H' Q. apply inj in Q; auto. lia.
      * rewrite V2; [apply A; auto; lia|]. intros p' H' Q. apply inj in Q; auto. lia.
    + intros q Q. rewrite V2; [apply B; intros; apply Q; auto; lia|]. intros p Hp. apply Q; auto. lia.
  - assert (L : ~ lives_on x n) by (unfold lives_on; lia). exists vals. split; auto. split.
    + intros d p Hd Ld Hp. apply A; auto. destruct (Z.eq_dec d n) as [->|]; [contradiction|lia].
    + intros q Q. apply B. intros. apply Q; auto. lia.
Qed.
Lemma att_ok : forall s', exists l, clone_att s cp s' x = Ok (set_atts s' (fm_atts (sm_m s') ++ l)) /\ Forall2 (att_cloned s ph) (filter (fun a => negb (text_eqb (at_name a) (str "copyatt"))) [x]) l.
Proof using All.
  intro s'. unfold clone_att. pose proof (gc_name _ _ G) as SN. unfold short in SN. unfold short_name. assert (Z.of_nat (length (at_name x)) <=? 255 = true) as -> by lia. cbn [negb filter].
  destruct (text_eqb (at_name x) (str "copyatt")); cbn [negb].
  - exists []. split; [|constructor]. rewrite app_nil_r. destruct s' as [[] ? ?]. reflexivity.
  - assert (D0 : kinds_done 0 (fun _ => None)).
    { split; auto. intros d p Hd Ld Hp. destruct (kind_cases _ _ _ Hp) as [-> | [-> | [-> | ->]]]; lia. }
    destruct (kind_step 0 _ D0) as (v0 & E0 & D1). change (K 0) with (fm_v (sm_m s)) in E0. unfold MVERTEX, MEDGE, MFACE, MREGION. rewrite E0. cbn [bind].
    destruct (kind_step _ _ D1) as (v1 & E1 & D2). change (0 + 1) with 1 in *. change (K 1) with (fm_e (sm_m s)) in E1. rewrite E1. cbn [bind].
    destruct (kind_step _ _ D2) as (v2 & E2 & D3). change (1 + 1) with 2 in *. change (K 2) with (fm_f (sm_m s)) in E2. rewrite E2. cbn [bind].
    destruct (kind_step _ _ D3) as (v3 & E3 & D4). change (2 + 1) with 3 in *. change (K 3) with (fm_r (sm_m s)) in E3. rewrite E3. cbn [bind]. change (3 + 1) with 4 in D4.
    eexists. split; [reflexivity|]. constructor; [|constructor]. destruct D4 as [A B].
    assert (R : forall d p, In p (K d) -> d < 4) by (intros d p H; destruct (kind_cases _ _ _ H) as [-> | [-> | [-> | ->]]]; lia).
    constructor; cbn [at_name at_type at_ncomp at_ent at_val]; auto.
    + pose proof (gc_ncomp _ _ G) as N. destruct (at_type x); cbn [is_vec]; auto.
    + intros d p L H T. rewrite A by eauto. unfold cval. destruct (at_type x); congruence.
    + intros q Q. destruct (at_type x) eqn:T; try (apply B; intros d p Hd Ld Hp; apply Q; auto; discriminate).
      destruct (in_dec Z.eq_dec q (flat_map (fun d => map (ph d) (K d)) [0; 1; 2; 3])) as [I|I].
      * cbn [flat_map] in I. rewrite !in_app_iff, !in_map_iff in I.
        assert (H : exists d p, In p (K d) /\ ph d p = q) by (destruct I as [(p & E & H)|[(p & E & H)|[(p & E & H)|[(p & E & H)|[]]]]]; eauto).
        destruct H as (d & p & H & <-). destruct (Z.eq_dec (at_ent x) d) as [e|e]; [|destruct (Z.eq_dec (at_ent x) MALLTYPE) as [e'|e']].
        -- rewrite A by (unfold lives_on; eauto). unfold cval. rewrite T. auto.
        -- rewrite A by (unfold lives_on; eauto). unfold cval. rewrite T. auto.
        -- apply B. intros d' p' _ L' H' Q'. apply inj in Q'; auto. destruct Q' as [-> _]. destruct L'; contradiction.
      * apply B. intros d p Hd _ Hp Q'. apply I. apply in_flat_map. exists d. split; [destruct (kind_cases _ _ _ Hp) as [-> | [-> | [-> | ->]]]; cbn; auto|]. rewrite <- Q'. apply in_map. auto.
Qed.
End One.
Lemma atts_ok : forall l s', Forall (good_catt s) l -> exists l', foldM (clone_att s cp) s' l = Ok (set_atts s' (fm_atts (sm_m s') ++ l')) /\ Forall2 (att_cloned s ph) (filter (fun a => negb (text_eqb (at_name a) (str "copyatt"))) l) l'.
Proof using All.
  induction l as [|x l IH]; intros s' F.
  - exists []. cbn [foldM filter]. split; [|constructor]. rewrite app_nil_r. destruct s' as [[] ? ?]. reflexivity.
  - inversion F as [|? ? F1 F2]; subst. destruct (att_ok x F1 s') as (l1 & E1 & G1). cbn [foldM]. rewrite E1. cbn [bind]. destruct (IH (set_atts s' (fm_atts (sm_m s') ++ l1)) F2) as (l2 & E2 & G2). rewrite E2. exists (l1 ++ l2). split.
    + cbn [set_atts with_m sm_m fm_atts]. rewrite <- app_assoc. reflexivity.
    + change (x :: l) with ([x] ++ l). rewrite filter_app. apply Forall2_app; auto.
Qed.
Lemma sets_ok : forall l s', Forall (good_cset s) l -> exists l', foldM (clone_set cp) s' l = Ok (set_sets s' (sm_sets s' ++ l')) /\ Forall2 (set_sent s ph) l l'.
Proof using All.
  induction l as [|x l IH]; intros s' F.
  - exists []. cbn [foldM]. split; [|constructor]. rewrite app_nil_r. destruct s'. reflexivity.
  - inversion F as [|? ? [F0 F1] F2]; subst. cbn [foldM]. unfold clone_set at 1. unfold short in F0. unfold short_name. assert (Z.of_nat (length (ms_name x)) <=? 255 = true) as -> by lia. cbn [negb].
    rewrite (mapM_ok _ _ _ cp).
    + cbn [bind]. destruct (IH (set_sets s' (sm_sets s' ++ [mkSet (ms_name x) (ms_ent x) (map cp (ms_list x))])) F2) as (l2 & E2 & G2). rewrite E2. exists (mkSet (ms_name x) (ms_ent x) (map cp (ms_list x)) :: l2). split.
      * cbn [set_sets sm_sets]. rewrite <- app_assoc. reflexivity.
      * constructor; auto. split; [reflexivity|]. split; [reflexivity|]. cbn [ms_list]. clear - F1 CP. induction (ms_list x) as [|p r IHr]; constructor.
        -- destruct (F1 p) as (d & H); [left; auto|]. exists d. split; auto. apply CP. auto.
        -- apply IHr. intros q Q. apply F1. right. auto.
    + intros p Hp. destruct (F1 p Hp) as (d & H). destruct (CP d p H) as [_ N]. assert (cp p =? NULL = false) as -> by lia. auto.
Qed.
End Atts.

Lemma clone_ok : forall s a (wa ws : bool), clonable s a -> (wa = true -> Forall (good_catt s) (satts s)) -> (ws = true -> Forall (good_cset s) (sm_sets s)) ->
  exists s' a' phi, MESH_Copy s empty_smesh wa ws = Ok s' /\ mesh_copy false s (bare s') a a' phi /\
    Forall2 (att_cloned s phi) (if wa then cloned_atts s else []) (satts s') /\ Forall2 (set_sent s phi) (if ws then sm_sets s else []) (sm_sets s').
Proof.
  intros s a wa ws (f & P) GA GS. destruct (entities_ok s f a P) as (s1 & cp & a' & E & A1 & A2 & MC & CP).
  assert (ND : forall d, NoDup (skind s d)) by exact (sd_nd _ _ _ P). pose proof (mc_nd _ _ _ _ _ _ MC) as inj.
  assert (X : exists s2, (if wa then foldM (clone_att s cp) s1 (satts s) else Ok s1) = Ok s2 /\ s2 = set_atts s1 (satts s2) /\ Forall2 (att_cloned s (phi (m0 (set_ids s f)))) (if wa then cloned_atts s else []) (satts s2)).
  { destruct wa.
    - destruct (atts_ok s _ cp ND inj CP (satts s) s1 (GA eq_refl)) as (l & E1 & F1). eexists. split; [exact E1|]. split; [reflexivity|]. unfold satts. cbn [set_atts with_m sm_m fm_atts]. rewrite A1. exact F1.
    - exists s1. split; [reflexivity|]. split; [destruct s1 as [[] ? ?]; reflexivity|]. unfold satts. rewrite A1. constructor. }
  destruct X as (s2 & E2 & F2 & G2).
  assert (Y : exists s3, (if ws then foldM (clone_set cp) s2 (sm_sets s) else Ok s2) = Ok s3 /\ s3 = set_sets s2 (sm_sets s3) /\ Forall2 (set_sent s (phi (m0 (set_ids s f)))) (if ws then sm_sets s else []) (sm_sets s3)).
  { assert (A3 : sm_sets s2 = []) by (rewrite F2; exact A2). destruct ws.
    - destruct (sets_ok s _ cp ND inj CP (sm_sets s) s2 (GS eq_refl)) as (l & E1 & F1). eexists. split; [exact E1|]. split; [reflexivity|]. cbn [set_sets sm_sets]. rewrite A3. exact F1.
    - exists s2. split; [reflexivity|]. split; [destruct s2; reflexivity|]. rewrite A3. constructor. }
  destruct Y as (s3 & E3 & F3 & G3). exists s3, a', (phi (m0 (set_ids s f))). split; [|split; [|split]].
  - unfold MESH_Copy. change (fm_v (sm_m s)) with (skind s 0). change (fm_e (sm_m s)) with (skind s 1). change (fm_f (sm_m s)) with (skind s 2). change (fm_r (sm_m s)) with (skind s 3). change (fm_atts (sm_m s)) with (satts s).
    revert E. destruct (foldM (clone_vertex s) _ _) as [st0| | |]; cbn [bind]; try discriminate. destruct (foldM (clone_edge s) _ _) as [st1| | |]; cbn [bind]; try discriminate. destruct (foldM (clone_face s) _ _) as [st2| | |]; cbn [bind]; try discriminate. intro E. rewrite E. cbn [bind]. rewrite E2. cbn [bind]. exact E3.
  - assert (bare s3 = s1) as ->; [|exact MC]. rewrite F3, F2. destruct s1 as [[] ? ?]. unfold bare. cbn in *. subst. reflexivity.
  - rewrite F3. exact G2.
  - exact G3.
Qed.
