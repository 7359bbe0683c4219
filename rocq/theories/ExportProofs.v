(** Files in the formats OFF and STL: lemmas. *)
From Coq Require Import ZArith Bool Ascii String Floats.SpecFloat List Lia Arith ZifyBool ZifyNat.
From Verif Require Import Base BaseProofs ListSpec AttModel TopoModel TopoSpec TopoProofs TopoProofs2 TopoProofs3 TopoProofs5 TopoProps TopoProps2 ModProofs BuildProofs3 ParModel FileModel FileSpec FileProofs FileProofs2 SendModel SendSpec PartSpec ColModel ExportModel ExportSpec.
Import ListNotations.
Open Scope Z_scope.

(** ** Reading *)
Definition reads {A B} (rd : text -> option (A * text)) (wf : B -> list text) (val : B -> A) (x : B) : Prop :=
  forall s ws, words s = wf x ++ ws -> exists s', rd s = Some (val x, s') /\ words s' = ws.
Lemma many_ok : forall A B (rd : text -> option (A * text)) (wf : B -> list text) (val : B -> A) l, (forall x, In x l -> reads rd wf val x) ->
  forall s ws, words s = concat (map wf l) ++ ws -> exists s', many rd (List.length l) s = Some (map val l, s') /\ words s' = ws.
Proof.
  intros A B rd wf val. induction l as [|x l IH]; intros H s ws E; cbn [map concat List.length many] in *.
  - exists s. auto.
  - rewrite <- app_assoc in E. destruct (H x (or_introl eq_refl) s _ E) as (s1 & -> & E1). destruct (IH (fun y Hy => H y (or_intror Hy)) s1 ws E1) as (s2 & -> & E2). eauto.
Qed.
Lemma real_ok : forall k x, reads real (fun x => [fixed k x]) (back k) x.
Proof. intros k x s ws E. destruct (scan_f_ok s k x ws E) as (s' & E' & W). exists s'. unfold real. rewrite E'. auto. Qed.
Lemma int_ok : forall z, is_int z -> reads int (fun z => [pd z]) (fun z => z) z.
Proof. intros z I s ws E. destruct (scan_d_ok s z ws E I) as (s' & E' & W). exists s'. unfold int. rewrite E'. auto. Qed.
Definition pwords (k : nat) (p : point) : list text := let '(x, y, z) := p in [fixed k x; fixed k y; fixed k z].
Definition pback (k : nat) (p : point) : point := let '(x, y, z) := p in (back k x, back k y, back k z).
Lemma point_ok : forall k p, reads point3 (pwords k) (pback k) p.
Proof.
  intros k [[x y] z] s ws E. destruct (many_ok _ _ real (fun x => [fixed k x]) (back k) [x; y; z] (fun x _ => real_ok k x) s ws E) as (s' & E' & W).
  exists s'. split; auto. unfold point3. cbn [List.length] in E'. rewrite E'. reflexivity.
Qed.
Definition lwords (l : list Z) : list text := pd (ZL l) :: map pd l.
Lemma polygon_ok : forall l, is_int (ZL l) -> Forall is_int l -> reads polygon lwords (fun l => l) l.
Proof.
  intros l I F s ws E. destruct (int_ok (ZL l) I s (map pd l ++ ws) E) as (s1 & E1 & W1).
  destruct (many_ok _ _ int (fun z => [pd z]) (fun z => z) l) with (s := s1) (ws := ws) as (s2 & E2 & W2).
  - rewrite Forall_forall in F. intros x Hx. apply int_ok. auto.
  - rewrite W1. f_equal. clear. induction l; cbn; congruence.
  - exists s2. unfold polygon. rewrite E1. unfold ZL. rewrite Nat2Z.id, E2, map_id. auto.
Qed.
Lemma read_ok : forall s ps ls nv nf ne, words s = word "OFF" :: pd nv :: pd nf :: pd ne :: concat (map (pwords 12) ps) ++ concat (map lwords ls) ->
  is_int nv -> is_int nf -> is_int ne -> nv = Z.of_nat (List.length ps) -> nf = Z.of_nat (List.length ls) -> (forall l, In l ls -> is_int (ZL l) /\ Forall is_int l) ->
  read_off s = Some (map (pback 12) ps, ls).
Proof.
  intros s ps ls nv nf ne E I1 I2 I3 -> -> FL. unfold read_off. destruct (scan_s_ok 256 s _ _ E) as (s1 & E1 & W1); [vm_compute; reflexivity|]. rewrite E1. cbn [got].
  destruct (list_eq_dec ascii_dec (word "OFF") (list_ascii_of_string "OFF")) as [_|N]; [|exfalso; apply N; reflexivity].
  destruct (many_ok _ _ int (fun z => [pd z]) (fun z => z) [Z.of_nat (List.length ps); Z.of_nat (List.length ls); ne]) with (s := s1) (ws := concat (map (pwords 12) ps) ++ concat (map lwords ls)) as (s2 & E2 & W2).
  - intros x [<-|[<-|[<-|[]]]]; apply int_ok; auto.
  - rewrite W1. reflexivity.
  - cbn [List.length map] in E2. rewrite E2. rewrite Nat2Z.id.
    destruct (many_ok _ _ point3 (pwords 12) (pback 12) ps (fun x _ => point_ok 12 x) s2 _ W2) as (s3 & E3 & W3). rewrite E3. rewrite Nat2Z.id.
    destruct (many_ok _ _ polygon lwords (fun l => l) ls (fun l Hl => polygon_ok l (proj1 (FL l Hl)) (proj2 (FL l Hl))) s3 [] ltac:(rewrite app_nil_r; exact W3)) as (s4 & E4 & W4). rewrite E4, map_id. reflexivity.
Qed.

(** ** Writing *)
Lemma printM_lead : forall A (g : A -> result text) (z : A -> Z) l, (forall x, In x l -> g x = Ok (sp ++ pd (z x))) -> forall out,
  exists s, foldM (fun out x => s <- g x ;; Ok (out ++ s)) out l = Ok (out ++ s) /\ (forall r, blank r -> words (s ++ r) = map (fun x => pd (z x)) l ++ words r /\ blank (s ++ r)).
Proof.
  intros A g z. induction l as [|x l IH]; intros H out.
  - exists []. rewrite app_nil_r. split; auto.
  - cbn [foldM]. rewrite (H x (or_introl eq_refl)). cbn [bind]. destruct (IH (fun y Hy => H y (or_intror Hy)) (out ++ sp ++ pd (z x))) as (s & E & W).
    exists ((sp ++ pd (z x)) ++ s). split; [rewrite E, <- !app_assoc; auto|]. intros r B. destruct (W r B) as [W1 W2]. split; [|reflexivity].
    rewrite <- !app_assoc. unfold sp. cbn [app]. rewrite words_sp by reflexivity. rewrite words_word by (auto; apply pd_wordy). rewrite W1. reflexivity.
Qed.
Lemma words_line : forall w k p r, words (line3 w k p ++ r) = pwords k p ++ words r.
Proof.
  intros w k [[x y] z] r. unfold line3, pwords. norm. repeat (rewrite <- app_assoc; cbn [app]). rewrite !words_split by reflexivity. rewrite !words_width1. reflexivity.
Qed.
Lemma line_closed : forall w k p, writes (Ok (line3 w k p)) (pwords k p).
Proof.
  intros w k p. exists (line3 w k p). split; auto. assert (E : words (line3 w k p) = pwords k p) by (rewrite <- (app_nil_r (line3 w k p)), words_line; apply app_nil_r). split; auto.
  intro r. rewrite words_line, E. auto.
Qed.

(** ** The faces *)
Section Faces.
Variables (s : smesh) (a : amesh).
Hypothesis P : partable s a.
Lemma face_verts : forall f, good_face a f -> exists b vs, a_f a f = Some (true, Some b) /\ around a vs b /\ MF_Vertices (sm_t s) f 1 NULL = Ok vs /\ (List.length vs <= 30)%nat /\ List.length vs = List.length b /\
  forall v, In v vs -> In v (skind s 0) /\ exists x, getv (sm_t s) v = Ok x.
Proof using All.
  intros f G. pose proof (pa_reach _ _ P) as RE. pose proof (reach_inv _ _ RE) as I. destruct (loop_verts (sm_t s) a f true RE G) as (vs & E & _ & IV). change (b2z true) with 1 in E.
  destruct G as (b & u & Eb & Pb & _). pose proof (pa_loops _ _ P _ _ Eb) as LB. destruct (C23_face_loop (sm_t s) a f b u true NULL RE Eb Pb) as (A & _). destruct (A eq_refl) as (vs' & E' & _ & AR). change (b2z true) with 1 in E'. rewrite E in E'. inversion E'. subst vs'. cbn [walk] in AR.
  assert (EL : List.length vs = List.length b) by (rewrite (around_vat _ _ _ AR); apply map_length).
  exists b, vs. repeat (split; auto); [lia| |].
  - apply IV in H. destruct H as (e & _ & v0 & v1 & Ev & HV). destruct (pa_ends _ _ P _ _ _ Ev) as [N0 N1]. destruct (w_ends _ (i_w _ _ I) _ _ _ Ev) as [[W0|W0] [W1|W1]]; try contradiction. apply (pa_v _ _ P). destruct HV as [<-|<-]; auto.
  - apply IV in H. destruct H as (e & _ & v0 & v1 & Ev & HV). destruct (pa_ends _ _ P _ _ _ Ev) as [N0 N1]. destruct (w_ends _ (i_w _ _ I) _ _ _ Ev) as [[W0|W0] [W1|W1]]; try contradiction.
    assert (LVV : live_v a v) by (destruct HV as [<-|<-]; auto). unfold live_v in LVV. rewrite <- (i_v _ _ I) in LVV. unfold getv. destruct (tvs (sm_t s) v); [eauto|discriminate].
Qed.
Lemma face_coords : forall f vs, MF_Vertices (sm_t s) f 1 NULL = Ok vs -> (List.length vs <= 30)%nat -> (forall v, In v vs -> exists x, getv (sm_t s) v = Ok x) -> MF_Coords (sm_m s) f = Ok (map (fm_x (sm_m s)) vs).
Proof using.
  intros f vs E L G. unfold MF_Coords. change (fm_t (sm_m s)) with (sm_t s). rewrite E. cbn [bind].
  rewrite (mapM_ok _ _ _ (fun i => fm_x (sm_m s) (nth (Z.to_nat i) vs NULL))).
  - f_equal. apply nth_ext with (d := fm_x (sm_m s) NULL) (d' := fm_x (sm_m s) NULL); rewrite !map_length, zrange_length; [unfold ZL; lia|]. intros i Hi. rewrite (nth_indep _ _ (fm_x (sm_m s) (nth (Z.to_nat 0) vs NULL))) by (rewrite map_length, zrange_length; lia).
    rewrite (map_nth (fun i => fm_x (sm_m s) (nth (Z.to_nat i) vs NULL))), map_nth. unfold ZL. replace (Z.of_nat (List.length vs)) with (0 + Z.of_nat (List.length vs)) by lia. rewrite zrange_nth by (unfold ZL in Hi; lia). rewrite Z.add_0_l, Nat2Z.id. reflexivity.
  - intros i Hi. apply zrange_In in Hi. unfold ZL in Hi. unfold lent. replace (i <? 0) with false by lia. cbn [bind]. unfold MAXPV2. replace (30 <=? i) with false by lia.
    destruct (G (nth (Z.to_nat i) vs NULL)) as (x & Ex); [apply nth_In; lia|]. rewrite Ex. reflexivity.
Qed.
Lemma off_face_ok : forall f vs, MF_Vertices (sm_t s) f 1 NULL = Ok vs -> (forall v, In v vs -> exists x, getv (sm_t s) v = Ok x) -> writes (off_face (sm_m s) f) (lwords (map (fm_id (sm_m s)) vs)).
Proof using.
  intros f vs E G. unfold off_face. change (fm_t (sm_m s)) with (sm_t s). rewrite E. cbn [bind].
  destruct (printM_lead _ (fun i => v <- lent vs i ;; _ <- getv (sm_t s) v ;; Ok (sp ++ pd (fm_id (sm_m s) v))) (fun i => fm_id (sm_m s) (nth (Z.to_nat i) vs NULL)) (zrange 0 (ZL vs))) with (out := @nil ascii) as (t & Et & W).
  - intros i Hi. apply zrange_In in Hi. unfold ZL in Hi. unfold lent. replace (i <? 0) with false by lia. cbn [bind]. destruct (G (nth (Z.to_nat i) vs NULL)) as (x & Ex); [apply nth_In; lia|]. rewrite Ex. reflexivity.
  - unfold printM. rewrite Et. cbn [bind app]. eexists. split; [reflexivity|].
    assert (ME : map (fun i => pd (fm_id (sm_m s) (nth (Z.to_nat i) vs NULL))) (zrange 0 (ZL vs)) = map pd (map (fm_id (sm_m s)) vs)).
    { rewrite map_map. apply nth_ext with (d := pd (fm_id (sm_m s) NULL)) (d' := pd (fm_id (sm_m s) NULL)); rewrite !map_length, zrange_length; [unfold ZL; lia|]. intros i Hi. rewrite (nth_indep _ _ (pd (fm_id (sm_m s) (nth (Z.to_nat 0) vs NULL)))) by (rewrite map_length, zrange_length; lia).
      rewrite (map_nth (fun i => pd (fm_id (sm_m s) (nth (Z.to_nat i) vs NULL)))), (map_nth (fun v => pd (fm_id (sm_m s) v))). unfold ZL. replace (Z.of_nat (List.length vs)) with (0 + Z.of_nat (List.length vs)) by lia. rewrite zrange_nth by (unfold ZL in Hi; lia). rewrite Z.add_0_l, Nat2Z.id. reflexivity. }
    assert (WW : forall r, words ((pd (ZL vs) ++ sp ++ t ++ nl) ++ r) = lwords (map (fm_id (sm_m s)) vs) ++ words r).
    { intro r. rewrite <- !app_assoc. unfold sp. cbn [app]. rewrite words_split by reflexivity. rewrite words_pd. unfold nl. cbn [app]. destruct (W ("010"%char :: r)) as [W1 _]; [reflexivity|]. rewrite W1, words_sp by reflexivity. rewrite ME. unfold lwords, ZL. rewrite map_length. reflexivity. }
    assert (W0 : words (pd (ZL vs) ++ sp ++ t ++ nl) = lwords (map (fm_id (sm_m s)) vs)) by (rewrite <- (app_nil_r (pd _ ++ _)), WW; apply app_nil_r).
    split; auto. intro r. rewrite WW, W0. reflexivity.
Qed.
End Faces.

(** ** Words and characters *)
Lemma split_words : forall s w, Forall (fun c => is_space c = false) w -> split s w = words (rev w ++ s).
Proof.
  induction s as [|c s IH]; intros w F; cbn [split].
  - rewrite app_nil_r. destruct w as [|d w]; auto. rewrite words_word1; auto. split; [cbn; destruct (rev w); discriminate|]. apply Forall_rev. auto.
  - destruct (is_space c) eqn:C.
    + destruct w as [|d w]; [rewrite IH by auto; cbn [rev app]; rewrite words_sp by auto; auto|]. rewrite IH by auto. rewrite words_one; auto. split; [cbn; destruct (rev w); discriminate|]. apply Forall_rev. auto.
    + rewrite IH by (constructor; auto). cbn [rev]. rewrite <- app_assoc. reflexivity.
Qed.
Lemma concat_split : forall s w, concat (split s w) = rev w ++ filter (fun c => negb (is_space c)) s.
Proof.
  induction s as [|c s IH]; intros w; cbn [split filter].
  - destruct w; cbn [concat]; [reflexivity|]. reflexivity.
  - destruct (is_space c) eqn:C; cbn [negb].
    + destruct w as [|d w]; [rewrite IH; reflexivity|]. cbn [concat]. rewrite IH. reflexivity.
    + rewrite IH. cbn [rev]. rewrite <- app_assoc. reflexivity.
Qed.
Definition solidf (s : text) : text := filter (fun c => negb (is_space c)) s.
Lemma solidf_app : forall x y, solidf (x ++ y) = solidf x ++ solidf y.
Proof. intros. apply filter_app. Qed.
Lemma solidf_wordy : forall w, wordy w -> solidf w = w.
Proof. intros w [_ F]. induction F; auto. cbn. rewrite H. cbn. f_equal. auto. Qed.
Lemma solidf_width : forall n w, solidf (width n w) = solidf w.
Proof. intros n w. unfold width. rewrite solidf_app. replace (solidf (repeat _ _)) with (@nil ascii); auto. generalize (n - List.length w)%nat. induction n0; auto. Qed.
