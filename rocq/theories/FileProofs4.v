(** Reading the entities. *)
From Coq Require Import ZArith Bool Ascii String Floats.SpecFloat List Lia Arith ZifyBool ZifyNat.
From Verif Require Import Base BaseProofs ListSpec AttModel AttProps TopoModel TopoSpec TopoProofs TopoProofs2 TopoProofs3 TopoProofs5 TopoProps ParModel FileModel FileSpec FileProofs FileProofs2 FileProofs3.
Import ListNotations.
Open Scope Z_scope.

(** ** Scanning *)
Lemma first_d_ok : forall s z ws, words s = pd z :: ws -> is_int z -> exists s', first_d s = Ok (z, s') /\ words s' = ws.
Proof. intros s z ws H I. destruct (scan_d_ok s z ws H I) as (s' & E & W). exists s'. unfold first_d. rewrite E. auto. Qed.
Lemma next_d_ok : forall s z ws, words s = pd z :: ws -> is_int z -> exists s', next_d s = Ok (z, s') /\ words s' = ws.
Proof. intros s z ws H I. destruct (scan_d_ok s z ws H I) as (s' & E & W). exists s'. unfold next_d. rewrite E. auto. Qed.
Lemma first_f_ok : forall s k x ws, words s = fixed k x :: ws -> exists s', first_f s = Ok (back k x, s') /\ words s' = ws.
Proof. intros s k x ws H. destruct (scan_f_ok s k x ws H) as (s' & E & W). exists s'. unfold first_f. rewrite E. auto. Qed.
Lemma next_f_ok : forall s k x ws, words s = fixed k x :: ws -> exists s', next_f s = Ok (back k x, s') /\ words s' = ws.
Proof. intros s k x ws H. destruct (scan_f_ok s k x ws H) as (s' & E & W). exists s'. unfold next_f. rewrite E. auto. Qed.
Lemma first_s_ok : forall n s w ws, words s = w :: ws -> Z.of_nat (length w) < n -> exists s', first_s n s = Ok (w, s') /\ words s' = ws.
Proof. intros n s w ws H L. destruct (scan_s_ok n s w ws H L) as (s' & E & W). exists s'. unfold first_s. rewrite E. auto. Qed.
Ltac rd_d H s' W := let E := fresh "E" in first [destruct (first_d_ok _ _ _ H) as (s' & E & W) | destruct (next_d_ok _ _ _ H) as (s' & E & W)].

Lemma mod_small3 : forall x y, 0 <= x < 8 -> 0 <= y < 2 ^ 26 -> (x mod 2 ^ 3, y mod 2 ^ 26) = (x, y).
Proof. intros. rewrite !Z.mod_small; auto. Qed.

Section Read.
Variables (m : fmesh) (a : amesh).
Hypothesis P : printable m a.

(** ** Where the copies are *)
Definition base (d : Z) : Z := (if 0 <? d then ZL (fm_v m) else 0) + (if 1 <? d then ZL (fm_e m) else 0) + (if 2 <? d then ZL (fm_f m) else 0).
Definition phi (d : Z) (p : ptr) : ptr := base d + pos (kind m d) p.
Lemma kind_cases : forall m' d p, In p (kind m' d) -> d = 0 \/ d = 1 \/ d = 2 \/ d = 3.
Proof using. intros m' d p H. pose proof (kind_in _ _ _ H). lia. Qed.
Lemma phi_inj : forall d p d' p', In p (kind m d) -> In p' (kind m d') -> phi d p = phi d' p' -> d = d' /\ p = p'.
Proof using.
  intros d p d' p' H H' E. pose proof (pos_range _ _ H) as R. pose proof (pos_range _ _ H') as R'. unfold phi, base in E.
  assert (d = d').
  { destruct (kind_cases _ _ _ H) as [-> | [-> | [-> | ->]]], (kind_cases _ _ _ H') as [-> | [-> | [-> | ->]]]; auto; exfalso; unfold kind in R, R', E; cbn [Z.eqb Z.ltb Z.compare Pos.eqb Pos.compare Pos.compare_cont] in R, R', E; unfold ZL in *; lia. }
  subst d'. split; auto. eapply pos_inj; eauto. lia.
Qed.

(** ** What is copied so far: [L d] of dimension [d] *)
Definition add (L : Z -> list ptr) (D : Z) (w : ptr) : Z -> list ptr := fun d => if d =? D then L d ++ [w] else L d.
Definition three (x : spec_float * spec_float * spec_float) := let '(x, y, z) := x in (back 16 x, back 16 y, back 16 z).
Record info (L : Z -> list ptr) (m' : fmesh) (N : Z) : Prop := mkInfo {
  q_in : forall d p, In p (L d) -> In p (kind m d) /\ phi d p < N;
  q_kind : forall d, kind m' d = map (phi d) (L d);
  q_c : forall d p, In p (L d) -> fm_c m' (phi d p) = fm_c m p;
  q_id : forall d p, In p (L d) -> fm_id m' (phi d p) = pos (kind m d) p;
  q_x : forall p, In p (L 0) -> fm_x m' (phi 0 p) = three (fm_x m p);
  q_at : fm_atts m' = [] }.
Lemma info_add : forall L m' N D w rest m'', info L m' N -> kind m D = L D ++ w :: rest -> phi D w = N ->
  (forall d, kind m'' d = if d =? D then kind m' d ++ [N] else kind m' d) ->
  (forall q, fm_c m'' q = if q =? N then fm_c m w else fm_c m' q) ->
  (forall q, fm_id m'' q = if q =? N then pos (kind m D) w else fm_id m' q) ->
  (forall q, q <> N -> fm_x m'' q = fm_x m' q) -> (D = 0 -> fm_x m'' N = three (fm_x m w)) ->
  fm_atts m'' = fm_atts m' -> info (add L D w) m'' (N + 1).
Proof using.
  intros L m' N D w rest m'' [A1 A2 A3 A4 A5 A6] K F H1 H2 H3 H4 H5 H6.
  assert (Hin : forall d p, In p (add L D w d) -> In p (L d) \/ (d = D /\ p = w)).
  { intros d p H. unfold add in H. destruct (Z.eqb_spec d D) as [->|]; auto. apply in_app_or in H. destruct H as [H|[H|[]]]; auto. }
  assert (Hw : In w (kind m D)) by (rewrite K; apply in_or_app; right; left; auto).
  constructor.
  - intros d p H. destruct (Hin _ _ H) as [Q|[-> ->]]; [destruct (A1 _ _ Q); split; auto; lia|split; auto; lia].
  - intro d. rewrite H1, A2. unfold add. destruct (Z.eqb_spec d D) as [->|]; auto. rewrite map_app. cbn [map]. rewrite F. auto.
  - intros d p H. rewrite H2. destruct (Hin _ _ H) as [Q|[-> ->]]; [destruct (A1 _ _ Q); assert (phi d p =? N = false) as -> by lia; auto|]. rewrite F, Z.eqb_refl. auto.
  - intros d p H. rewrite H3. destruct (Hin _ _ H) as [Q|[-> ->]]; [destruct (A1 _ _ Q); assert (phi d p =? N = false) as -> by lia; auto|]. rewrite F, Z.eqb_refl. auto.
  - intros p H. destruct (Hin _ _ H) as [Q|[<- ->]]; [destruct (A1 _ _ Q); rewrite H4 by lia; auto|]. rewrite F. auto.
  - congruence.
Qed.
Definition mapb (d : Z) (b : list (ptr * bool)) : list (ptr * bool) := map (fun x => (phi d (fst x), snd x)) b.
Record tp (L : Z -> list ptr) (m' : fmesh) (a' : amesh) : Prop := mkTp {
  t_reach : reach (fm_t m') a';
  t_next : a_next a' = 1 + ZL (L 0) + ZL (L 1) + ZL (L 2) + ZL (L 3);
  t_v : forall q, live_v a' q <-> In q (map (phi 0) (L 0));
  t_e : forall q, live_e a' q <-> In q (map (phi 1) (L 1));
  t_f : forall q, live_f a' q <-> In q (map (phi 2) (L 2));
  t_r : forall q, live_r a' q <-> In q (map (phi 3) (L 3));
  t_ends : forall e v0 v1, In e (L 1) -> a_e a e = Some (true, (v0, v1)) -> a_e a' (phi 1 e) = Some (true, (phi 0 v0, phi 0 v1));
  t_loop : forall f b, In f (L 2) -> a_f a f = Some (true, Some b) -> a_f a' (phi 2 f) = Some (true, Some (mapb 1 b));
  t_faces : forall f b, In f (L 3) -> a_r a f = Some (true, Some b) -> a_r a' (phi 3 f) = Some (true, Some (mapb 2 b)) }.
Record copied (L : Z -> list ptr) (m' : fmesh) (a' : amesh) : Prop := mkCopied { cp_i : info L m' (a_next a'); cp_t : tp L m' a' }.
(** Everything below dimension [D] is copied, nothing above. *)
Definition stage (D : Z) (L : Z -> list ptr) : Prop := (forall d, d < D -> L d = kind m d) /\ (forall d, D < d -> L d = []).
Lemma stage_add : forall D L w, stage D L -> stage D (add L D w).
Proof using. intros D L w [A B]. split; intros d H; unfold add; destruct (Z.eqb_spec d D); try lia; auto. Qed.
Lemma copied_start : copied (fun _ => []) empty_fmesh amesh0.
Proof using.
  constructor; constructor; cbn; auto; try (intros; contradiction).
  - intro d. unfold kind. cbn. destruct (d =? 0), (d =? 1), (d =? 2), (d =? 3); auto.
  - exists []. split; [exact I|split; reflexivity].
  - intro q. unfold live_v. cbn. split; [discriminate|tauto].
  - intro q. unfold live_e. cbn. split; [intros [x H]; discriminate|tauto].
  - intro q. unfold live_f. cbn. split; [intros [x H]; discriminate|tauto].
  - intro q. unfold live_r. cbn. split; [intros [x H]; discriminate|tauto].
Qed.
(** The next address is where the next entity goes. *)
Lemma phi_next : forall D L m' a' w rest, stage D L -> tp L m' a' -> kind m D = L D ++ w :: rest -> phi D w = a_next a' /\ pos (kind m D) w = ZL (L D) + 1 /\ In w (kind m D) /\ ~ In w (L D).
Proof using P.
  intros D L m' a' w rest [A B] T K. assert (H : In w (kind m D)) by (rewrite K; apply in_or_app; right; left; auto).
  assert (N : ~ In w (L D)) by (pose proof (pr_nd _ _ P D) as ND; rewrite K in ND; apply NoDup_remove_2 in ND; intro Q; apply ND; apply in_or_app; auto).
  assert (E : pos (kind m D) w = ZL (L D) + 1) by (rewrite K; apply pos_app; auto).
  split; [|auto]. rewrite (t_next _ _ _ T). unfold phi. rewrite E. unfold base.
  assert (Z0 : forall d, D < d -> ZL (L d) = 0) by (intros d Hd; rewrite (B d Hd); auto).
  destruct (kind_cases _ _ _ H) as [-> | [-> | [-> | ->]]]; cbn [Z.ltb Z.compare Pos.compare Pos.compare_cont];
    rewrite ?(Z0 1), ?(Z0 2), ?(Z0 3), ?(A 0), ?(A 1), ?(A 2) by lia; cbn [kind Z.eqb Pos.eqb]; lia.
Qed.

(** ** Vertices *)
Lemma int3 : forall x, 0 <= x < 8 -> is_int x.
Proof using. unfold is_int. lia. Qed.
Lemma int26 : forall x, 0 <= x < 2 ^ 26 -> is_int x.
Proof using. unfold is_int. lia. Qed.
Lemma r_vertex_ok : forall L m' a' v rest s ws i, copied L m' a' -> stage 0 L -> kind m 0 = L 0 ++ v :: rest -> i = ZL (L 0) -> words s = vwords m v ++ ws ->
  exists m'' a'' s', r_vertex (m', s) i = Ok (m'', s') /\ copied (add L 0 v) m'' a'' /\ words s' = ws.
Proof using P.
  intros L m' a' v rest s ws i [CI CT] ST K -> W. destruct (phi_next _ _ _ _ _ _ ST CT K) as (F & PS & Hv & NV). pose proof (pr_class _ _ P _ _ Hv) as [C1 C2].
  unfold vwords in W. destruct (fm_x m v) as [[x y] z] eqn:X. cbn [app] in W. unfold r_vertex.
  destruct (first_f_ok _ _ _ _ W) as (s1 & E1 & W1). rewrite E1. cbn [bind]. destruct (next_f_ok _ _ _ _ W1) as (s2 & E2 & W2). rewrite E2. cbn [bind]. destruct (next_f_ok _ _ _ _ W2) as (s3 & E3 & W3). rewrite E3. cbn [bind].
  destruct (next_d_ok _ _ _ W3 (int3 _ C1)) as (s4 & E4 & W4). rewrite E4. cbn [bind]. destruct (next_d_ok _ _ _ W4 (int26 _ C2)) as (s5 & E5 & W5). rewrite E5. cbn [bind].
  pose proof (reach_inv _ _ (t_reach _ _ _ CT)) as I. destruct (reach_step _ _ TNewV (t_reach _ _ _ CT) Logic.I) as (t1 & S1 & R1). cbn [tstep] in S1. inversion S1 as [S1']. 
  unfold new_v. unfold MV_New at 1. cbv beta iota zeta. rewrite (i_n _ _ I). eexists. exists (astep a' TNewV), s5. split; [reflexivity|]. split; auto.
  constructor.
  - cbn [astep bump a_next with_v]. eapply info_add; try eassumption; cbn [fm_c fm_x fm_id fm_atts set_info set_x].
    + intro d. unfold kind. cbn [fm_v fm_e fm_f fm_r set_info set_x]. destruct (Z.eqb_spec d 0) as [->|]; auto.
    + intro q. unfold zupd. rewrite mod_small3 by auto. destruct (fm_c m v); reflexivity.
    + intro q. unfold zupd. rewrite PS. auto.
    + intros q Q. unfold zupd. destruct (Z.eqb_spec q (a_next a')); congruence.
    + intros _. unfold zupd. rewrite Z.eqb_refl, X. auto.
    + auto.
  - assert (EX : forall q, In q (map (phi 0) (add L 0 v 0)) <-> In q (map (phi 0) (L 0)) \/ q = a_next a').
    { intro q. unfold add. change (0 =? 0) with true. cbv iota. rewrite map_app, in_app_iff. cbn [map In]. rewrite F. intuition. }
    constructor; cbn [fm_t set_info set_x].
    + subst t1. unfold MV_New in R1. cbn [fst] in R1. rewrite (i_n _ _ I) in R1. exact R1.
    + cbn [astep bump a_next with_v]. rewrite (t_next _ _ _ CT). unfold add. cbn [Z.eqb]. unfold ZL. rewrite app_length. cbn [length]. lia.
    + intro q. rewrite EX, <- (t_v _ _ _ CT). unfold live_v. cbn [astep bump a_v with_v]. unfold upd. destruct (Z.eqb_spec q (a_next a')); intuition.
    + exact (t_e _ _ _ CT).
    + exact (t_f _ _ _ CT).
    + exact (t_r _ _ _ CT).
    + exact (t_ends _ _ _ CT).
    + exact (t_loop _ _ _ CT).
    + exact (t_faces _ _ _ CT).
Qed.

(** ** Edges *)
Lemma in_map_phi : forall d l p, In p l -> In (phi d p) (map (phi d) l).
Proof using. intros. apply in_map. auto. Qed.
Lemma lent_phi : forall d p, In p (kind m d) -> lent (map (phi d) (kind m d)) (pos (kind m d) p - 1) = Ok (phi d p).
Proof using.
  intros d p H. pose proof (pos_range _ _ H). unfold lent. assert (pos (kind m d) p - 1 <? 0 = false) as -> by lia. f_equal.
  rewrite (nth_indep _ NULL (phi d NULL)) by (rewrite map_length; unfold ZL in *; lia). rewrite map_nth, pos_nth; auto.
Qed.
Lemma int_pos : forall d p, In p (kind m d) -> is_int (pos (kind m d) p) /\ is_int (- pos (kind m d) p).
Proof using P.
  intros d p H. pose proof (pos_range _ _ H). pose proof (pr_size _ _ P). assert (ZL (kind m d) < 2 ^ 31); [|unfold is_int; lia].
  destruct (kind_cases _ _ _ H) as [-> | [-> | [-> | ->]]]; unfold ZL; cbn [kind Z.eqb Pos.eqb]; lia.
Qed.
Lemma r_edge_ok : forall L m' a' e rest s ws i, copied L m' a' -> stage 1 L -> kind m 1 = L 1 ++ e :: rest -> i = ZL (L 1) -> words s = ewords m a e ++ ws ->
  exists m'' a'' s', r_edge (m', s) i = Ok (m'', s') /\ copied (add L 1 e) m'' a'' /\ words s' = ws.
Proof using P.
  intros L m' a' e rest s ws i [CI CT] ST K -> W. destruct (phi_next _ _ _ _ _ _ ST CT K) as (F & PS & Hv & NV). pose proof (pr_class _ _ P _ _ Hv) as [C1 C2].
  assert (LE : live_e a e) by (apply (pr_e _ _ P); exact Hv). destruct LE as ([v0 v1] & LE). unfold ewords in W. rewrite LE in W. cbn [app] in W.
  destruct (ends_in _ _ P _ _ _ LE) as (I0 & I1 & _ & _). change (fm_v m) with (kind m 0) in W. destruct (int_pos 0 v0 I0) as [J0 _]. destruct (int_pos 0 v1 I1) as [J1 _]. unfold r_edge.
  destruct (first_d_ok _ _ _ W J0) as (s1 & E1 & W1). rewrite E1. cbn [bind]. destruct (next_d_ok _ _ _ W1 J1) as (s2 & E2 & W2). rewrite E2. cbn [bind].
  destruct (next_d_ok _ _ _ W2 (int3 _ C1)) as (s4 & E4 & W4). rewrite E4. cbn [bind]. destruct (next_d_ok _ _ _ W4 (int26 _ C2)) as (s5 & E5 & W5). rewrite E5. cbn [bind].
  assert (KV : fm_v m' = map (phi 0) (kind m 0)) by (change (fm_v m') with (kind m' 0); rewrite (q_kind _ _ _ CI), (proj1 ST 0) by lia; auto).
  rewrite KV, !lent_phi by auto. cbn [bind].
  assert (LV : forall v, In v (kind m 0) -> live_v a' (phi 0 v)) by (intros v Q; apply (t_v _ _ _ CT); rewrite (proj1 ST 0) by lia; apply in_map; auto).
  pose proof (reach_inv _ _ (t_reach _ _ _ CT)) as I. destruct (reach_step _ _ TNewE (t_reach _ _ _ CT) Logic.I) as (t1 & S1 & R1). cbn [tstep] in S1. inversion S1 as [S1'].
  set (N := a_next a') in *.
  assert (AE1 : a_e (astep a' TNewE) N = Some (true, (NULL, NULL))) by (cbn; unfold upd; fold N; rewrite Z.eqb_refl; auto).
  destruct (reach_step _ _ (TSetVertex N false (phi 0 v0)) R1) as (t2 & S2 & R2).
  { cbn [tpre]. split; [exact (LV _ I0)|]. exists NULL, NULL. auto. }
  assert (AE2 : a_e (astep (astep a' TNewE) (TSetVertex N false (phi 0 v0))) N = Some (true, (phi 0 v0, NULL))) by (cbn [astep with_e a_e] in *; unfold upd at 1; rewrite Z.eqb_refl, AE1; auto).
  destruct (reach_step _ _ (TSetVertex N true (phi 0 v1)) R2) as (t3 & S3 & R3).
  { cbn [tpre]. split; [exact (LV _ I1)|]. exists (phi 0 v0), NULL. auto. }
  set (a3 := astep (astep (astep a' TNewE) (TSetVertex N false (phi 0 v0))) (TSetVertex N true (phi 0 v1))) in *.
  assert (AE3 : a_e a3 N = Some (true, (phi 0 v0, phi 0 v1))) by (unfold a3; cbn [astep with_e a_e] in *; unfold upd at 1; rewrite Z.eqb_refl, AE2; auto).
  assert (AEo : forall q, q <> N -> a_e a3 q = a_e a' q) by (intros q Q; unfold a3; cbn [astep with_e a_e bump]; unfold upd; fold N; destruct (Z.eqb_spec q N); congruence).
  cbn [tstep b2z] in S2, S3. unfold ME_New in S1'. cbn [fst] in S1'. rewrite (i_n _ _ I) in S1'. fold N in S1'.
  unfold new_e. unfold ME_New at 1. cbv beta iota zeta. cbn [fm_t]. rewrite (i_n _ _ I). fold N. rewrite S1', S2. cbn [bind]. rewrite S3. cbn [bind]. eexists. exists a3, s5. split; [reflexivity|]. split; auto.
  constructor.
  - change (a_next a3) with (N + 1). eapply info_add; try eassumption; cbn [fm_c fm_x fm_id fm_atts set_info set_ft].
    + intro d. unfold kind. cbn [fm_v fm_e fm_f fm_r set_info set_ft]. destruct (Z.eqb_spec d 1) as [->|]; auto.
    + intro q. unfold zupd. rewrite mod_small3 by auto. destruct (fm_c m e); reflexivity.
    + intro q. unfold zupd. rewrite PS. auto.
    + auto.
    + lia.
    + auto.
  - assert (EX : forall q, In q (map (phi 1) (add L 1 e 1)) <-> In q (map (phi 1) (L 1)) \/ q = N).
    { intro q. unfold add. change (1 =? 1) with true. cbv iota. rewrite map_app, in_app_iff. cbn [map In]. rewrite F. intuition. }
    constructor; cbn [fm_t set_info set_ft].
    + exact R3.
    + change (a_next a3) with (N + 1). unfold N. rewrite (t_next _ _ _ CT). unfold add. cbn [Z.eqb Pos.eqb]. unfold ZL. rewrite app_length. cbn [length]. lia.
    + exact (t_v _ _ _ CT).
    + intro q. rewrite EX, <- (t_e _ _ _ CT). unfold live_e. destruct (Z.eq_dec q N) as [->|Q]; [rewrite AE3; split; [auto|eauto]|]. rewrite AEo by auto. tauto.
    + exact (t_f _ _ _ CT).
    + exact (t_r _ _ _ CT).
    + intros e' u0 u1 Q A. unfold add in Q. change (1 =? 1) with true in Q. cbv iota in Q. apply in_app_or in Q. destruct Q as [Q|[<- | []]].
      * rewrite AEo by (pose proof (q_in _ _ _ CI _ _ Q); lia). apply (t_ends _ _ _ CT); auto.
      * rewrite F, AE3. congruence.
    + exact (t_loop _ _ _ CT).
    + exact (t_faces _ _ _ CT).
Qed.

(** ** Signed lists *)
Lemma r_parts_ok : forall d b s ws, (forall x, In x b -> In (fst x) (kind m d)) -> words s = map (fun x => pd (bnum (kind m d) x)) b ++ ws ->
  exists s', r_parts (map (phi d) (kind m d)) (Z.of_nat (length b)) s = Ok (map fst (mapb d b), dirz (mapb d b), s') /\ words s' = ws.
Proof using P.
  intros d b s ws HB W. unfold r_parts.
  assert (G : forall b i s ps ds, (forall x, In x b -> In (fst x) (kind m d)) -> words s = map (fun x => pd (bnum (kind m d) x)) b ++ ws -> exists s',
    foldM (fun st (j : Z) => let '(ps, ds, s) := st in ' (i, s) <- first_d s ;; p <- lent (map (phi d) (kind m d)) (Z.abs i - 1) ;; Ok (ps ++ [p], ds ++ [if 0 <? i then 1 else 0], s)) (ps, ds, s) (zrange i (i + Z.of_nat (length b)))
    = Ok (ps ++ map fst (mapb d b), ds ++ dirz (mapb d b), s') /\ words s' = ws).
  { clear b s HB W. induction b as [|[p g] b IH]; intros i s ps ds HB W.
    - exists s. rewrite zrange_nil by (cbn; lia). cbn. rewrite !app_nil_r. auto.
    - rewrite zrange_cons by (cbn [length]; lia). cbn [foldM map app] in *. assert (Hp : In p (kind m d)) by (apply (HB (p, g)); left; auto). pose proof (pos_range _ _ Hp) as R.
      destruct (int_pos _ _ Hp) as [J1 J2]. destruct (first_d_ok _ _ _ W) as (s1 & E1 & W1); [unfold bnum; cbn [fst snd]; destruct g; auto|]. rewrite E1. cbn [bind].
      assert (AB : Z.abs (bnum (kind m d) (p, g)) = pos (kind m d) p) by (unfold bnum; cbn [fst snd]; destruct g; lia). rewrite AB, lent_phi by auto. cbn [bind].
      replace (i + Z.of_nat (length ((p, g) :: b))) with (i + 1 + Z.of_nat (length b)) by (cbn [length]; lia).
      destruct (IH (i + 1) s1 (ps ++ [phi d p]) (ds ++ [if 0 <? bnum (kind m d) (p, g) then 1 else 0])) as (s2 & E2 & W2); [intros; apply HB; right; auto|exact W1|].
      rewrite E2. exists s2. split; auto. f_equal. f_equal. f_equal.
      + rewrite <- app_assoc. reflexivity.
      + rewrite <- app_assoc. cbn [app dirz map mapb]. f_equal. f_equal. unfold bnum. cbn [fst snd]. destruct g; cbn [b2z]; [assert (0 <? pos (kind m d) p = true) as -> by lia|assert (0 <? - pos (kind m d) p = false) as -> by lia]; auto. }
  destruct (G b 0 s [] [] HB W) as (s' & E & W'). exists s'. split; auto. 
Qed.
Lemma mapb_nd : forall d b, (forall x, In x b -> In (fst x) (kind m d)) -> NoDup (map fst b) -> NoDup (map fst (mapb d b)).
Proof using.
  intros d b H N. unfold mapb. rewrite map_map. cbn [fst]. rewrite <- (map_map fst (phi d)). assert (H' : forall p, In p (map fst b) -> In p (kind m d)) by (intros p Q; apply in_map_iff in Q; destruct Q as (x & <- & Q); auto).
  clear H. induction (map fst b) as [|p l IH]; [constructor|]. inversion N; subst. cbn [map]. constructor; [|apply IH; auto; intros; apply H'; right; auto].
  intro Q. apply in_map_iff in Q. destruct Q as (p' & E & Q). apply phi_inj in E; [destruct E as [_ E]; subst; auto|apply H'; right; auto|apply H'; left; auto].
Qed.

(** ** Faces *)
Lemma r_face_ok : forall L m' a' f rest s ws i, copied L m' a' -> stage 2 L -> kind m 2 = L 2 ++ f :: rest -> i = ZL (L 2) -> words s = bwords m (fm_e m) (fbdry a f) f ++ ws ->
  exists m'' a'' s', r_face (m', s) i = Ok (m'', s') /\ copied (add L 2 f) m'' a'' /\ words s' = ws.
Proof using P.
  intros L m' a' f rest s ws i [CI CT] ST K -> W. destruct (phi_next _ _ _ _ _ _ ST CT K) as (F & PS & Hv & NV). pose proof (pr_class _ _ P _ _ Hv) as [C1 C2].
  pose proof (face_full _ _ P f Hv) as LF. set (b := fbdry a f) in *. pose proof (i_w _ _ (reach_inv _ _ (pr_reach _ _ P))) as WF. destruct (w_fnd _ WF _ _ _ LF) as [ND LB]. unfold maxfe in LB.
  assert (HB : forall x, In x b -> In (fst x) (kind m 1)) by (intros x Hx; apply (face_edges_in _ _ P _ _ LF x Hx)).
  unfold bwords in W. cbn [app] in W. rewrite <- app_assoc in W. unfold r_face.
  pose proof (reach_inv _ _ (t_reach _ _ _ CT)) as I. destruct (reach_step _ _ TNewF (t_reach _ _ _ CT) Logic.I) as (t1 & S1 & R1). cbn [tstep] in S1. inversion S1 as [S1']. unfold MF_New in S1'. cbn [fst] in S1'. rewrite (i_n _ _ I) in S1'.
  unfold new_f. unfold MF_New at 1. cbv beta iota zeta. cbn [fm_t fm_e]. rewrite (i_n _ _ I). set (N := a_next a') in *.
  destruct (first_d_ok _ _ _ W) as (s1 & E1 & W1); [unfold is_int; lia|]. rewrite E1. cbn [bind]. assert (Z.of_nat (length b) <? 0 = false) as -> by lia.
  assert (KE : fm_e m' = map (phi 1) (kind m 1)) by (change (fm_e m') with (kind m' 1); rewrite (q_kind _ _ _ CI), (proj1 ST 1) by lia; auto). rewrite KE.
  destruct (r_parts_ok 1 b s1 _ HB W1) as (s2 & E2 & W2). rewrite E2. cbn [bind]. rewrite S1'.
  assert (AF1 : a_f (astep a' TNewF) N = Some (true, None)) by (cbn; unfold upd; fold N; rewrite Z.eqb_refl; auto).
  destruct (reach_step _ _ (TSetEdges N (mapb 1 b)) R1) as (t2 & S2 & R2).
  { cbn [tpre]. split; [left; auto|]. split; [apply mapb_nd; auto|]. split; [unfold mapb, maxfe; rewrite map_length; auto|]. apply Forall_forall. intros x Hx. apply in_map_iff in Hx. destruct Hx as (y & <- & Hy). cbn [fst].
    apply (t_e _ _ _ CT). rewrite (proj1 ST 1) by lia. apply in_map. auto. }
  cbn [tstep] in S2. replace (Z.of_nat (length (mapb 1 b))) with (Z.of_nat (length b)) in S2 by (unfold mapb; rewrite map_length; auto). rewrite S2. cbn [bind]. cbn [app] in W2.
  destruct (first_d_ok _ _ _ W2 (int3 _ C1)) as (s4 & E4 & W4). rewrite E4. cbn [bind]. destruct (next_d_ok _ _ _ W4 (int26 _ C2)) as (s5 & E5 & W5). rewrite E5. cbn [bind].
  set (a3 := astep (astep a' TNewF) (TSetEdges N (mapb 1 b))) in *.
  assert (AF3 : a_f a3 N = Some (true, Some (mapb 1 b))) by (unfold a3; cbn [astep set_fb with_f a_f] in *; unfold upd at 1; rewrite Z.eqb_refl, AF1; auto).
  assert (AFo : forall q, q <> N -> a_f a3 q = a_f a' q) by (intros q Q; unfold a3; cbn [astep set_fb with_f a_f bump]; unfold upd; fold N; destruct (Z.eqb_spec q N); congruence).
  eexists. exists a3, s5. split; [reflexivity|]. split; auto.
  constructor.
  - change (a_next a3) with (N + 1). eapply info_add; try eassumption; cbn [fm_c fm_x fm_id fm_atts set_info set_ft].
    + intro d. unfold kind. cbn [fm_v fm_e fm_f fm_r set_info set_ft]. destruct (Z.eqb_spec d 2) as [->|]; auto. rewrite KE. auto.
    + intro q. unfold zupd. rewrite mod_small3 by auto. destruct (fm_c m f); reflexivity.
    + intro q. unfold zupd. rewrite PS. auto.
    + auto.
    + lia.
    + auto.
  - assert (EX : forall q, In q (map (phi 2) (add L 2 f 2)) <-> In q (map (phi 2) (L 2)) \/ q = N).
    { intro q. unfold add. change (2 =? 2) with true. cbv iota. rewrite map_app, in_app_iff. cbn [map In]. rewrite F. intuition. }
    constructor; cbn [fm_t set_info set_ft].
    + exact R2.
    + change (a_next a3) with (N + 1). unfold N. rewrite (t_next _ _ _ CT). unfold add. cbn [Z.eqb Pos.eqb]. unfold ZL. rewrite app_length. cbn [length]. lia.
    + exact (t_v _ _ _ CT).
    + exact (t_e _ _ _ CT).
    + intro q. rewrite EX, <- (t_f _ _ _ CT). unfold live_f. destruct (Z.eq_dec q N) as [->|Q]; [rewrite AF3; split; [auto|eauto]|]. rewrite AFo by auto. tauto.
    + exact (t_r _ _ _ CT).
    + exact (t_ends _ _ _ CT).
    + intros e' u Q A. unfold add in Q. change (2 =? 2) with true in Q. cbv iota in Q. apply in_app_or in Q. destruct Q as [Q|[<- | []]].
      * rewrite AFo by (pose proof (q_in _ _ _ CI _ _ Q); lia). apply (t_loop _ _ _ CT); auto.
      * rewrite F, AF3. congruence.
    + exact (t_faces _ _ _ CT).
Qed.

(** ** Regions *)
Lemma one_region : forall f d r r', has_face a r f d -> has_face a r' f d -> r = r'.
Proof using P.
  intros f d r r' H H'. pose proof (reach_inv _ _ (pr_reach _ _ P)) as I. pose proof (i_w _ _ I) as WF.
  assert (NN : forall q, has_face a q f d -> q <> NULL) by (intros q (b & Q & _); pose proof (w_r _ WF q ltac:(congruence)); unfold NULL; lia).
  pose proof (NN _ H) as NH. pose proof H as Q. destruct Q as (b & E & Hb). pose proof (w_rf _ WF _ _ E) as FF. rewrite Forall_forall in FF. destruct (FF _ Hb) as [x Hx]. cbn [fst] in Hx. destruct (get_f _ _ f I ltac:(congruence)) as (z & Ez & _).
  destruct (i_uf _ _ I _ _ Ez r NH) as [U1 U2]. destruct (i_uf _ _ I _ _ Ez r' (NN _ H')) as [U3 U4]. destruct d.
  - apply U1 in H. apply U3 in H'. congruence.
  - apply U2 in H. apply U4 in H'. congruence.
Qed.
Lemma r_region_ok : forall L m' a' r rest s ws i, copied L m' a' -> stage 3 L -> kind m 3 = L 3 ++ r :: rest -> i = ZL (L 3) -> words s = bwords m (fm_f m) (rbdry a r) r ++ ws ->
  exists m'' a'' s', r_region (m', s) i = Ok (m'', s') /\ copied (add L 3 r) m'' a'' /\ words s' = ws.
Proof using P.
  intros L m' a' f rest s ws i [CI CT] ST K -> W. destruct (phi_next _ _ _ _ _ _ ST CT K) as (F & PS & Hv & NV). pose proof (pr_class _ _ P _ _ Hv) as [C1 C2].
  pose proof (reg_full _ _ P f Hv) as LF. set (b := rbdry a f) in *. pose proof (i_w _ _ (reach_inv _ _ (pr_reach _ _ P))) as WF. destruct (w_rnd _ WF _ _ _ LF) as [ND LB]. unfold maxrf in LB.
  assert (HB : forall x, In x b -> In (fst x) (kind m 2)) by (intros x Hx; apply (reg_faces_in _ _ P _ _ LF x Hx)).
  unfold bwords in W. cbn [app] in W. rewrite <- app_assoc in W. unfold r_region.
  pose proof (reach_inv _ _ (t_reach _ _ _ CT)) as I. destruct (reach_step _ _ TNewR (t_reach _ _ _ CT) Logic.I) as (t1 & S1 & R1). cbn [tstep] in S1. inversion S1 as [S1']. unfold MR_New in S1'. cbn [fst] in S1'. rewrite (i_n _ _ I) in S1'.
  unfold new_r. unfold MR_New at 1. cbv beta iota zeta. cbn [fm_t fm_f]. rewrite (i_n _ _ I). set (N := a_next a') in *.
  destruct (first_d_ok _ _ _ W) as (s1 & E1 & W1); [unfold is_int; lia|]. rewrite E1. cbn [bind]. assert (Z.of_nat (length b) <? 0 = false) as -> by lia.
  assert (KE : fm_f m' = map (phi 2) (kind m 2)) by (change (fm_f m') with (kind m' 2); rewrite (q_kind _ _ _ CI), (proj1 ST 2) by lia; auto). rewrite KE.
  destruct (r_parts_ok 2 b s1 _ HB W1) as (s2 & E2 & W2). rewrite E2. cbn [bind]. rewrite S1'.
  assert (AF1 : a_r (astep a' TNewR) N = Some (true, None)) by (cbn; unfold upd; fold N; rewrite Z.eqb_refl; auto).
  destruct (reach_step _ _ (TSetFaces N (mapb 2 b)) R1) as (t2 & S2 & R2).
  { cbn [tpre]. split; [left; auto|]. split; [apply mapb_nd; auto|]. split; [unfold mapb, maxrf; rewrite map_length; auto|]. split.
    - apply Forall_forall. intros x Hx. apply in_map_iff in Hx. destruct Hx as (y & <- & Hy). cbn [fst]. pose proof (face_full _ _ P _ (HB _ Hy)) as FF.
      exists (mapb 1 (fbdry a (fst y))). change (a_f (astep a' TNewR)) with (a_f a'). apply (t_loop _ _ _ CT); auto. rewrite (proj1 ST 2) by lia. auto.
    - intros g d q Hg (bq & Q1 & Q2). destruct (Z.eq_dec q N) as [->|QN]; auto. exfalso.
      assert (Q3 : a_r a' q = Some (true, Some bq)) by (cbn [astep bump with_r a_r] in Q1; unfold upd in Q1; fold N in Q1; destruct (Z.eqb_spec q N); congruence).
      assert (LQ : live_r a' q) by (eexists; eauto). apply (t_r _ _ _ CT) in LQ. apply in_map_iff in LQ. destruct LQ as (r' & <- & Hr'). pose proof (q_in _ _ _ CI _ _ Hr') as [Kr' _].
      pose proof (reg_full _ _ P _ Kr') as FR. pose proof (t_faces _ _ _ CT _ _ Hr' FR) as FT. rewrite Q3 in FT. inversion FT; subst bq. apply in_map_iff in Q2. destruct Q2 as ([g1 d1] & X1 & Y1). apply in_map_iff in Hg. destruct Hg as ([g2 d2] & X2 & Y2).
      inversion X1; inversion X2; subst. cbn [fst snd] in *. assert (g1 = g2) as <-.
      { assert (E3 : phi 2 g2 = phi 2 g1) by congruence. apply phi_inj in E3; [destruct E3; auto|apply (HB _ Y2)|apply (reg_faces_in _ _ P _ _ FR _ Y1)]. }
      assert (r' = f); [|subst; auto]. apply (one_region g1 d); [exists (rbdry a r'); auto|exists b; split; auto; congruence]. }
  cbn [tstep] in S2. replace (Z.of_nat (length (mapb 2 b))) with (Z.of_nat (length b)) in S2 by (unfold mapb; rewrite map_length; auto). rewrite S2. cbn [bind]. cbn [app] in W2.
  destruct (first_d_ok _ _ _ W2 (int3 _ C1)) as (s4 & E4 & W4). rewrite E4. cbn [bind]. destruct (next_d_ok _ _ _ W4 (int26 _ C2)) as (s5 & E5 & W5). rewrite E5. cbn [bind].
  set (a3 := astep (astep a' TNewR) (TSetFaces N (mapb 2 b))) in *.
  assert (AF3 : a_r a3 N = Some (true, Some (mapb 2 b))) by (unfold a3; cbn [astep set_rb with_r a_r] in *; unfold upd at 1; rewrite Z.eqb_refl, AF1; auto).
  assert (AFo : forall q, q <> N -> a_r a3 q = a_r a' q) by (intros q Q; unfold a3; cbn [astep set_rb with_r a_r bump]; unfold upd; fold N; destruct (Z.eqb_spec q N); congruence).
  eexists. exists a3, s5. split; [reflexivity|]. split; auto.
  constructor.
  - change (a_next a3) with (N + 1). eapply info_add; try eassumption; cbn [fm_c fm_x fm_id fm_atts set_info set_ft].
    + intro d. unfold kind. cbn [fm_v fm_e fm_f fm_r set_info set_ft]. destruct (Z.eqb_spec d 3) as [->|]; auto. rewrite KE. auto.
    + intro q. unfold zupd. rewrite mod_small3 by auto. destruct (fm_c m f); reflexivity.
    + intro q. unfold zupd. rewrite PS. auto.
    + auto.
    + lia.
    + auto.
  - assert (EX : forall q, In q (map (phi 3) (add L 3 f 3)) <-> In q (map (phi 3) (L 3)) \/ q = N).
    { intro q. unfold add. change (3 =? 3) with true. cbv iota. rewrite map_app, in_app_iff. cbn [map In]. rewrite F. intuition. }
    constructor; cbn [fm_t set_info set_ft].
    + exact R2.
    + change (a_next a3) with (N + 1). unfold N. rewrite (t_next _ _ _ CT). unfold add. cbn [Z.eqb Pos.eqb]. unfold ZL. rewrite app_length. cbn [length]. lia.
    + exact (t_v _ _ _ CT).
    + exact (t_e _ _ _ CT).
    + exact (t_f _ _ _ CT).
    + intro q. rewrite EX, <- (t_r _ _ _ CT). unfold live_r. destruct (Z.eq_dec q N) as [->|Q]; [rewrite AF3; split; [auto|eauto]|]. rewrite AFo by auto. tauto.
    + exact (t_ends _ _ _ CT).
    + exact (t_loop _ _ _ CT).
    + intros e' u Q A. unfold add in Q. change (3 =? 3) with true in Q. cbv iota in Q. apply in_app_or in Q. destruct Q as [Q|[<- | []]].
      * rewrite AFo by (pose proof (q_in _ _ _ CI _ _ Q); lia). apply (t_faces _ _ _ CT); auto.
      * rewrite F, AF3. congruence.
Qed.

(** ** The loops *)
Lemma loop_ok : forall D (step : fmesh * text -> Z -> result (fmesh * text)) (wd : ptr -> list text),
  (forall L m' a' w rest s ws i, copied L m' a' -> stage D L -> kind m D = L D ++ w :: rest -> i = ZL (L D) -> words s = wd w ++ ws ->
    exists m'' a'' s', step (m', s) i = Ok (m'', s') /\ copied (add L D w) m'' a'' /\ words s' = ws) ->
  forall rest L m' a' s ws, copied L m' a' -> stage D L -> kind m D = L D ++ rest -> words s = concat (map wd rest) ++ ws ->
    exists L' m'' a'' s', foldM step (m', s) (zrange (ZL (L D)) (ZL (kind m D))) = Ok (m'', s') /\ copied L' m'' a'' /\ stage D L' /\ L' D = kind m D /\ words s' = ws.
Proof using.
  intros D step wd H. induction rest as [|w rest IH]; intros L m' a' s ws C ST K W.
  - exists L, m', a', s. rewrite app_nil_r in K. rewrite zrange_nil by (rewrite K; lia). cbn. auto.
  - cbn [map concat] in W. rewrite <- app_assoc in W. destruct (H L m' a' w rest s _ (ZL (L D)) C ST K eq_refl W) as (m1 & a1 & s1 & E1 & C1 & W1).
    rewrite zrange_cons by (rewrite K; unfold ZL; rewrite app_length; cbn [length]; lia). cbn [foldM]. rewrite E1. cbn [bind].
    assert (EL : add L D w D = L D ++ [w]) by (unfold add; rewrite Z.eqb_refl; auto).
    destruct (IH (add L D w) m1 a1 s1 ws C1 (stage_add _ _ _ ST)) as (L' & m2 & a2 & s2 & E2 & C2 & ST2 & K2 & W2); [rewrite EL, <- app_assoc; auto|auto|].
    exists L', m2, a2, s2. replace (ZL (L D) + 1) with (ZL (add L D w D)) by (rewrite EL; unfold ZL; rewrite app_length; cbn [length]; lia). auto.
Qed.
Lemma stage_next : forall D L, stage D L -> L D = kind m D -> stage (D + 1) L /\ L (D + 1) = [].
Proof using.
  intros D L [A B] E. split; [split; intros d H|apply B; lia].
  - destruct (Z.eq_dec d D) as [->|]; auto. apply A. lia.
  - apply B. lia.
Qed.
End Read.
