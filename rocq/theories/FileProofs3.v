(** The words of the file that is written: attributes, and the whole file. *)
From Coq Require Import ZArith Bool Ascii String Floats.SpecFloat List Lia Arith ZifyBool ZifyNat.
From Verif Require Import Base BaseProofs ListSpec AttModel AttProps TopoModel TopoSpec TopoProofs TopoProofs2 TopoProofs3 TopoProofs5 TopoProps ParModel FileModel FileSpec FileProofs FileProofs2.
Import ListNotations.
Open Scope Z_scope.

Definition val_words (v : attval) : list text :=
  match v with AInt i => [pd i] | ADbl x => [fixed 6 x] | AVec l => map (fixed 6) l end.
Definition is_some {A} (o : option A) : bool := match o with Some _ => true | None => false end.
Definition users (m : fmesh) (a : attr) : list (Z * ptr) := filter (fun dp => is_some (at_val a (snd dp))) (scope m (at_ent a)).
Definition user_words (m : fmesh) (a : attr) (dp : Z * ptr) : list text :=
  pd (fst dp) :: pd (pos (kind m (fst dp)) (snd dp)) :: match at_val a (snd dp) with Some v => val_words v | None => [] end.
Definition attr_words (m : fmesh) (a : attr) : list text :=
  if is_pointer (at_type a) || (length (users m a) =? 0)%nat then []
  else at_name a :: type_word (at_type a) :: pd (at_ncomp a) :: ent_word (at_ent a) :: pd (Z.of_nat (length (users m a))) :: concat (map (user_words m a) (users m a)).

Lemma kind_in : forall m d p, In p (kind m d) -> 0 <= d <= 3.
Proof.
  intros m d p. unfold kind. destruct (Z.eqb_spec d 0); [lia|]. destruct (Z.eqb_spec d 1); [lia|]. destruct (Z.eqb_spec d 2); [lia|]. destruct (Z.eqb_spec d 3); [lia|]. intros [].
Qed.
Lemma scope_on : forall m a d p, at_ent a = MALLTYPE \/ 0 <= at_ent a <= 3 -> (In (d, p) (scope m (at_ent a)) <-> on m a d p).
Proof.
  intros m a d p G. unfold on, covers.
  assert (K : forall k l, In (d, p) (map (fun p => (k, p)) l) <-> d = k /\ In p l).
  { intros k l. rewrite in_map_iff. split; [intros (q & E & H); inversion E; subst; auto|intros [-> H]; exists p; auto]. }
  unfold scope. unfold MVERTEX, MEDGE, MFACE, MREGION, MALLTYPE in *.
  destruct G as [-> | G].
  - cbn [Z.eqb Pos.eqb]. cbv zeta. rewrite !in_app_iff, !K. split.
    + intros [[-> H] | [[-> H] | [[-> H] | [-> H]]]]; (split; [split; [lia|auto]|exact H]).
    + intros [[H _] Q]. assert (d = 0 \/ d = 1 \/ d = 2 \/ d = 3) as [-> | [-> | [-> | ->]]] by lia; cbn in Q; auto.
  - assert (at_ent a = 0 \/ at_ent a = 1 \/ at_ent a = 2 \/ at_ent a = 3) as [E | [E | [E | E]]] by lia; rewrite E; cbn [Z.eqb Pos.eqb]; cbv zeta; rewrite K;
      (split; [intros [-> H]; split; [split; [lia|auto]|exact H]|intros [[_ [<- | B]] Q]; [auto|lia]]).
Qed.
Lemma scope_nd : forall m a, (forall d, NoDup (kind m d)) -> NoDup (scope m (at_ent a)).
Proof.
  intros m a N. assert (K : forall k l, NoDup l -> NoDup (map (fun p : ptr => (k : Z, p)) l)).
  { intros k l H. induction H; cbn; constructor; auto. rewrite in_map_iff. intros (q & E & Q). inversion E; subst; auto. }
  assert (D : forall (k : Z) (x : Z * ptr) l, In x (map (fun p => (k, p)) l) -> fst x = k) by (intros k x l H; apply in_map_iff in H; destruct H as (q & <- & _); auto).
  pose proof (N 0) as N0. pose proof (N 1) as N1. pose proof (N 2) as N2. pose proof (N 3) as N3. cbn in N0, N1, N2, N3. unfold scope.
  destruct (at_ent a =? MVERTEX); [apply K; auto|]. destruct (at_ent a =? MEDGE); [apply K; auto|]. destruct (at_ent a =? MFACE); [apply K; auto|]. destruct (at_ent a =? MREGION); [apply K; auto|].
  destruct (at_ent a =? MALLTYPE); [|constructor].
  apply NoDup_app_intro'; [apply K; auto| |]. apply NoDup_app_intro'; [apply K; auto| |]. apply NoDup_app_intro'; [apply K; auto|apply K; auto|].
  - intros x A B. apply D in A. apply D in B. lia.
  - intros x A B. apply D in A. apply in_app_or in B. destruct B as [B|B]; apply D in B; lia.
  - intros x A B. apply D in A. apply in_app_or in B. destruct B as [B|B]; [apply D in B; lia|]. apply in_app_or in B. destruct B as [B|B]; apply D in B; lia.
Qed.
Lemma scope_len : forall m e, (length (scope m e) <= length (fm_v m) + length (fm_e m) + length (fm_f m) + length (fm_r m))%nat.
Proof.
  intros m e. unfold scope. destruct (e =? MVERTEX); [rewrite map_length; lia|]. destruct (e =? MEDGE); [rewrite map_length; lia|]. destruct (e =? MFACE); [rewrite map_length; lia|].
  destruct (e =? MREGION); [rewrite map_length; lia|]. destruct (e =? MALLTYPE); [rewrite !app_length, !map_length; lia|cbn; lia].
Qed.
Lemma filter_len : forall A (f : A -> bool) l, (length (filter f l) <= length l)%nat.
Proof. induction l; cbn; auto. destruct (f a); cbn; lia. Qed.
Lemma users_len : forall m a, (length (users m a) <= length (fm_v m) + length (fm_e m) + length (fm_f m) + length (fm_r m))%nat.
Proof. intros. unfold users. pose proof (filter_len _ (fun dp => is_some (at_val a (snd dp))) (scope m (at_ent a))). pose proof (scope_len m (at_ent a)). lia. Qed.
Lemma type_wordy : forall t, wordy (type_word t) /\ Z.of_nat (length (type_word t)) < 256.
Proof. intros []; (split; [split; [discriminate|repeat constructor]|cbn; lia]). Qed.
Lemma ent_wordy : forall e, wordy (ent_word e) /\ Z.of_nat (length (ent_word e)) < 256.
Proof.
  intros e. unfold ent_word. destruct (e =? MVERTEX); [|destruct (e =? MEDGE); [|destruct (e =? MFACE); [|destruct (e =? MREGION)]]]; (split; [split; [discriminate|repeat constructor]|cbn; lia]).
Qed.

Section Write2.
Variables (m : fmesh) (a : amesh).
Hypothesis P : printable m a.
Lemma kind_nonnull : forall d p, In p (kind m d) -> p <> NULL.
Proof using P.
  intros d p H. pose proof (i_w _ _ (reach_inv _ _ (pr_reach _ _ P))) as W. pose proof (kind_in _ _ _ H) as K. unfold NULL.
  assert (d = 0 \/ d = 1 \/ d = 2 \/ d = 3) as [-> | [-> | [-> | ->]]] by lia; cbn in H.
  - apply (pr_v _ _ P) in H. pose proof (w_v _ W p ltac:(unfold live_v in H; congruence)). lia.
  - apply (pr_e _ _ P) in H. destruct H as [x H]. pose proof (w_e _ W p ltac:(congruence)). lia.
  - apply (pr_f _ _ P) in H. destruct H as [x H]. pose proof (w_f _ W p ltac:(congruence)). lia.
  - apply (pr_r _ _ P) in H. destruct H as [x H]. pose proof (w_r _ W p ltac:(congruence)). lia.
Qed.
Lemma dbl_ok : forall x, closed (dbl_text x) /\ words (dbl_text x) = [fixed 6 x].
Proof.
  intro x. unfold dbl_text, sp. cbn [app]. split; [apply (closed_split [] " "%char); [reflexivity|]; apply closed_split; [reflexivity|apply closed_nil]|].
  rewrite words_sp by reflexivity. rewrite words_split by reflexivity. rewrite words_fixed. auto.
Qed.
Lemma value_ok : forall at_ v, has_type at_ v -> exists s, w_value (at_type at_) (at_ncomp at_) v = Ok s /\ closed (sp ++ s ++ nl) /\ words (sp ++ s ++ nl) = val_words v.
Proof.
  intros A v H. unfold has_type in H. assert (V : forall l, Z.of_nat (length l) = at_ncomp A -> exists s,
    printM (fun k => match nth_error l (Z.to_nat k) with Some x => Ok (dbl_text x) | None => Undef end) (zrange 0 (at_ncomp A)) = Ok s /\ closed (sp ++ s ++ nl) /\ words (sp ++ s ++ nl) = map (fixed 6) l).
  { intros l L. destruct (printM_ok _ (fun k => match nth_error l (Z.to_nat k) with Some x => Ok (dbl_text x) | None => Undef end) (fun k => [fixed 6 (nth (Z.to_nat k) l S754_nan)]) (zrange 0 (at_ncomp A))) as (s & E & C & W).
    - intros k Hk. apply in_map_iff in Hk. destruct Hk as (j & <- & Hj). apply in_seq in Hj. rewrite <- L, Z.sub_0_r, Nat2Z.id in Hj. rewrite Z.add_0_l, Nat2Z.id.
      rewrite (nth_error_nth' l S754_nan) by lia. eexists. split; [reflexivity|]. apply dbl_ok.
    - exists s. split; auto. unfold sp, nl. cbn [app]. split; [apply (closed_split [] " "%char); [reflexivity|]; apply closed_snoc; reflexivity|].
      rewrite words_sp by reflexivity. rewrite words_split by reflexivity. cbn [words]. rewrite app_nil_r, W, concat_one. unfold zrange. rewrite map_map, <- L, Z.sub_0_r, Nat2Z.id.
      rewrite (map_ext _ (fun k => fixed 6 (nth k l S754_nan))) by (intros; rewrite Z.add_0_l, Nat2Z.id; auto). clear. induction l as [|x l IH]; auto.
      cbn [length seq map nth]. f_equal. rewrite <- seq_shift, map_map. exact IH. }
  destruct (at_type A); destruct v as [i|x|l]; try contradiction; cbn [w_value val_words]; auto.
  - eexists. split; [reflexivity|]. unfold sp, nl. cbn [app]. split; [apply (closed_split [] " "%char); [reflexivity|]; apply (closed_split [] " "%char); [reflexivity|]; apply closed_snoc; reflexivity|].
    rewrite !words_sp by reflexivity. rewrite words_split by reflexivity. rewrite words_pd. auto.
  - eexists. split; [reflexivity|]. unfold sp, nl, dbl_text, sp. cbn [app]. rewrite <- app_assoc. cbn [app]. split.
    + apply (closed_split [] " "%char); [reflexivity|]. apply (closed_split [] " "%char); [reflexivity|]. apply closed_split; [reflexivity|]. apply (closed_split [] "010"%char); [reflexivity|apply closed_nil].
    + rewrite !words_sp by reflexivity. rewrite words_split by reflexivity. rewrite words_fixed. auto.
Qed.
Definition ids (d : Z) : ptr -> Z := if d =? 0 then numbers (fm_v m) else if d =? 1 then numbers (fm_e m) else if d =? 2 then numbers (fm_f m) else numbers (fm_r m).
Lemma ids_pos : forall d p, In p (kind m d) -> ids d p = pos (kind m d) p.
Proof using P.
  intros d p H. pose proof (kind_in _ _ _ H) as K. assert (d = 0 \/ d = 1 \/ d = 2 \/ d = 3) as [-> | [-> | [-> | ->]]] by lia; unfold ids; cbn [Z.eqb Pos.eqb]; apply numbers_pos.
  exact (pr_nd _ _ P 0). exact (pr_nd _ _ P 1). exact (pr_nd _ _ P 2). exact (pr_nd _ _ P 3).
Qed.
Lemma ids_pos_rev : forall d p, 0 <= pos (kind m d) p.
Proof using. intros. unfold pos. destruct (index_of _ _); lia. Qed.
Lemma w_attr_ok : forall A, good_attr m A -> writes (w_attr m ids A) (attr_words m A).
Proof using P.
  intros A G. destruct (ga_name _ _ G) as (N1 & N2 & N3). unfold w_attr, attr_words. assert (255 <? Z.of_nat (length (at_name A)) = false) as -> by lia.
  destruct (is_pointer (at_type A)) eqn:PT; [exists []; split; auto; split; [apply closed_nil|auto]|]. fold (@is_some attval).
  change (filter (fun dp => match at_val A (snd dp) with Some _ => true | None => false end) (scope m (at_ent A))) with (users m A).
  destruct (Nat.eqb_spec (length (users m A)) 0) as [Z0|Z0]; cbn [orb].
  { rewrite Z0. change (Z.of_nat 0 =? 0) with true. cbv iota. exists []. split; auto. split; [apply closed_nil|auto]. }
  assert (Z.of_nat (length (users m A)) =? 0 = false) as -> by lia.
  destruct (printM_ok _ (fun dp : Z * ptr => let '(d, p) := dp in
         i <- num (ids d) p ;; match at_val A p with Some v => s <- w_value (at_type A) (at_ncomp A) v ;; Ok (pd d ++ sp ++ pd i ++ sp ++ s ++ nl) | None => Ok [] end) (user_words m A) (users m A)) as (s & E & C & W).
  - intros [d p] H. apply filter_In in H. destruct H as [H V]. cbn [snd] in V. apply (scope_on _ _ _ _ (ga_ent _ _ G)) in H. destruct (at_val A p) as [v|] eqn:Ev; [|discriminate].
    pose proof H as [_ Hk]. rewrite num_ok by (eapply kind_nonnull; eauto). cbn [bind]. rewrite ids_pos by auto.
    destruct (value_ok A v) as (s & E & C & W); [eapply (ga_val _ _ G); eauto; intro Q; rewrite Q in PT; discriminate|]. rewrite E. cbn [bind]. unfold user_words. cbn [fst snd]. rewrite Ev.
    eexists. split; [reflexivity|]. unfold sp, nl in *. cbn [app] in *. rewrite words_sp in W by reflexivity. split.
    + apply closed_split; [reflexivity|]. apply closed_split; [reflexivity|]. apply closed_snoc. reflexivity.
    + rewrite (words_split (pd d)) by reflexivity. rewrite (words_split (pd _)) by reflexivity. rewrite !words_pd. rewrite W. auto.
  - rewrite E. cbn [bind]. eexists. split; [reflexivity|]. unfold nl. cbn [app]. split.
    + apply closed_split; [reflexivity|]. apply closed_split; [reflexivity|]. apply closed_split; [reflexivity|]. apply closed_split; [reflexivity|]. apply closed_split; [reflexivity|]. auto.
    + rewrite !words_split by reflexivity. rewrite !words_pd, W. rewrite (words_word1 (at_name A)) by (split; auto). rewrite (words_word1 (type_word _)) by apply type_wordy.
      rewrite (words_word1 (ent_word _)) by apply ent_wordy. auto.
Qed.

(** ** The whole file *)
Definition file_words : list text :=
  [str "MSTK"; str "1.0"; str "F1"; pd (ZL (fm_v m)); pd (ZL (fm_e m)); pd (ZL (fm_f m)); pd (ZL (fm_r m)); str "vertices"] ++
  concat (map (vwords m) (fm_v m)) ++
  str "edges" :: concat (map (ewords m a) (fm_e m)) ++
  str "faces" :: str "edge" :: concat (map (fun f => bwords m (fm_e m) (fbdry a f) f) (fm_f m)) ++
  (match fm_r m with [] => [] | _ => str "regions" :: str "face" :: concat (map (fun r => bwords m (fm_f m) (rbdry a r) r) (fm_r m)) end) ++
  (match fm_atts m with [] => [] | _ => str "attributes" :: concat (map (attr_words m) (fm_atts m)) end).
Lemma words_line : forall c w s, is_space c = true -> wordy w -> words (w ++ c :: s) = w :: words s.
Proof using. intros. rewrite words_split, words_word1 by auto. auto. Qed.
Lemma face_full : forall f, In f (fm_f m) -> a_f a f = Some (true, Some (fbdry a f)).
Proof using P. intros f H. apply (pr_f _ _ P) in H. destruct H as [[b|] H]; unfold fbdry; [rewrite H; auto|destruct (pr_faces _ _ P _ H)]. Qed.
Lemma reg_full : forall f, In f (fm_r m) -> a_r a f = Some (true, Some (rbdry a f)).
Proof using P. intros f H. apply (pr_r _ _ P) in H. destruct H as [[b|] H]; unfold rbdry; [rewrite H; auto|destruct (pr_regions _ _ P _ H)]. Qed.
Lemma write_ok : exists s, MESH_WriteToFile m = Ok s /\ words s = file_words.
Proof using P.
  unfold MESH_WriteToFile.
  destruct (printM_ok _ (w_vertex m) (vwords m) (fm_v m) (w_vertex_ok _ _ P)) as (sv & Ev & Cv & Wv). rewrite Ev. cbn [bind].
  assert (ZL (fm_e m) =? 0 = false) as -> by (pose proof (pr_edge _ _ P); unfold ZL; destruct (fm_e m); [congruence|cbn [length]; lia]).
  destruct (printM_ok _ _ (ewords m a) (fm_e m) (w_edge_ok _ _ P)) as (se & Ee & Ce & We). rewrite Ee. cbn [bind].
  destruct (printM_ok _ (w_face m (numbers (fm_e m))) (fun f => bwords m (fm_e m) (fbdry a f) f) (fm_f m)) as (sf & Ef & Cf & Wf); [intros; apply (w_face_ok _ _ P); apply face_full; auto|]. rewrite Ef. cbn [bind].
  destruct (printM_ok _ (w_region m (numbers (fm_f m))) (fun f => bwords m (fm_f m) (rbdry a f) f) (fm_r m)) as (sr & Er & Cr & Wr); [intros; apply (w_region_ok _ _ P); apply reg_full; auto|]. rewrite Er. cbn [bind].
  destruct (printM_ok _ (w_attr m ids) (attr_words m) (fm_atts m)) as (sa & Ea & Ca & Wa); [intros x Hx; apply w_attr_ok; pose proof (pr_atts _ _ P) as G; rewrite Forall_forall in G; auto|].
  assert (R : exists s, (if ZL (fm_r m) =? 0 then Ok [] else Ok (str "regions face" ++ nl ++ sr)) = Ok s /\ closed s /\
    words s = match fm_r m with [] => [] | _ => str "regions" :: str "face" :: concat (map (fun r => bwords m (fm_f m) (rbdry a r) r) (fm_r m)) end).
  { destruct (fm_r m) as [|r0 r1] eqn:Q; [exists []; split; auto; split; [apply closed_nil|auto]|]. unfold ZL. cbn [length]. assert (Z.of_nat (S (length r1)) =? 0 = false) as -> by lia.
    eexists. split; [reflexivity|]. unfold nl. cbn [app]. split; [apply closed_split; [reflexivity|auto]|]. rewrite words_split by reflexivity. rewrite Wr. reflexivity. }
  destruct R as (s2 & E2 & C2 & W2). rewrite E2. cbn [bind].
  assert (R : exists s, (match fm_atts m with [] => Ok [] | _ => s <- printM (w_attr m ids) (fm_atts m) ;; Ok (str "attributes" ++ nl ++ s) end) = Ok s /\
    words s = match fm_atts m with [] => [] | _ => str "attributes" :: concat (map (attr_words m) (fm_atts m)) end).
  { destruct (fm_atts m) as [|r0 r1] eqn:Q; [exists []; auto|]. rewrite Ea. cbn [bind]. eexists. split; [reflexivity|]. unfold nl. cbn [app]. rewrite words_split by reflexivity. rewrite Wa. reflexivity. }
  destruct R as (s3 & E3 & W3). fold ids. rewrite E3. cbn [bind]. eexists. split; [reflexivity|].
  unfold file_words. rewrite <- W3, <- W2, <- Wf, <- We, <- Wv. unfold nl, sp.
  change (str "F1 " ++ ?x) with (str "F1" ++ " "%char :: x). cbn [app]. rewrite <- ?app_assoc. cbn [app].
  rewrite (words_split (str "MSTK 1.0")) by reflexivity. rewrite (words_split (str "F1")) by reflexivity.
  rewrite (words_split (pd _)) by reflexivity. rewrite (words_split (pd _)) by reflexivity. rewrite (words_split (pd _)) by reflexivity. rewrite (words_split (pd _)) by reflexivity.
  rewrite (words_split (str "vertices")) by reflexivity. rewrite Cv. rewrite (words_split (str "edges")) by reflexivity. rewrite Ce. rewrite (words_split (str "faces edge")) by reflexivity. rewrite Cf, C2. rewrite !words_pd. reflexivity.
Qed.
End Write2.
