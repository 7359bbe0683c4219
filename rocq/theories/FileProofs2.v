(** The words of the file that is written. *)
From Coq Require Import ZArith Bool Ascii String Floats.SpecFloat List Lia Arith ZifyBool ZifyNat.
From Verif Require Import Base BaseProofs ListSpec AttModel AttProps TopoModel TopoSpec TopoProofs TopoProofs2 TopoProofs3 TopoProofs5 TopoProps ParModel FileModel FileSpec FileProofs.
Import ListNotations.
Open Scope Z_scope.

(** ** Positions *)
Definition pos (l : list ptr) (p : ptr) : Z := match index_of p l with Some k => Z.of_nat k + 1 | None => 0 end.
Lemma pos_app : forall l1 p l2, ~ In p l1 -> pos (l1 ++ p :: l2) p = ZL l1 + 1.
Proof. intros. unfold pos. rewrite index_of_app by auto. auto. Qed.
Lemma pos_in : forall l p, In p l -> exists l1 l2, l = l1 ++ p :: l2 /\ ~ In p l1 /\ pos l p = ZL l1 + 1.
Proof.
  intros l p H. unfold pos. destruct (index_of p l) as [k|] eqn:E.
  - destruct (index_of_some _ _ _ E) as (l1 & l2 & A & B & C). exists l1, l2. unfold ZL. repeat split; auto. lia.
  - destruct (index_of_none _ _ E H).
Qed.
Lemma pos_range : forall l p, In p l -> 1 <= pos l p <= ZL l.
Proof. intros l p H. destruct (pos_in l p H) as (l1 & l2 & A & B & C). rewrite C, A. unfold ZL. rewrite app_length. cbn [length]. lia. Qed.
Lemma pos_nth : forall l p, In p l -> nth (Z.to_nat (pos l p - 1)) l NULL = p.
Proof.
  intros l p H. destruct (pos_in l p H) as (l1 & l2 & A & B & C). rewrite C. replace (Z.to_nat (ZL l1 + 1 - 1)) with (length l1) by (unfold ZL; lia).
  rewrite A, app_nth2 by lia. rewrite Nat.sub_diag. auto.
Qed.
Lemma pos_inj : forall l p q, In p l -> In q l -> pos l p = pos l q -> p = q.
Proof. intros l p q P Q E. rewrite <- (pos_nth l p P), <- (pos_nth l q Q), E. auto. Qed.
Lemma numbers_go : forall l n0 i, NoDup l -> forall p,
  fst (fold_left (fun st q => (zupd (fst st) q (snd st + 1), snd st + 1)) l (n0, i)) p = match index_of p l with Some k => i + Z.of_nat k + 1 | None => n0 p end.
Proof.
  induction l as [|q l IH]; intros n0 i N p; [reflexivity|]. inversion N; subst. cbn [fold_left fst snd]. rewrite IH by auto. cbn [index_of].
  unfold zupd. destruct (Z.eqb_spec q p) as [->|D].
  - destruct (index_of p l) as [k|] eqn:E; [destruct (index_of_some _ _ _ E) as (l1 & l2 & -> & _); exfalso; apply H1; apply in_or_app; right; left; auto|].
    rewrite Z.eqb_refl. lia.
  - destruct (index_of p l) as [k|]; cbn [option_map]; [lia|]. destruct (Z.eqb_spec p q); congruence.
Qed.
Lemma numbers_pos : forall l p, NoDup l -> numbers l p = pos l p.
Proof. intros l p N. unfold numbers. rewrite numbers_go by auto. unfold pos. destruct (index_of p l); lia. Qed.

(** ** Printing *)
Definition writes (r : result text) (ws : list text) : Prop := exists s, r = Ok s /\ closed s /\ words s = ws.
Lemma closed_split : forall a c s, is_space c = true -> closed s -> closed (a ++ c :: s).
Proof. intros a c s C H r. rewrite <- app_assoc. cbn [app]. rewrite !words_split by auto. rewrite H, app_assoc. auto. Qed.
Lemma words_word1 : forall w, wordy w -> words w = [w].
Proof. intros. rewrite <- (app_nil_r w) at 1. rewrite words_word by (auto; exact I). auto. Qed.
Lemma words_pd : forall z, words (pd z) = [pd z].
Proof. intros. apply words_word1, pd_wordy. Qed.
Lemma words_fixed : forall k x, words (fixed k x) = [fixed k x].
Proof. intros. apply words_word1, fixed_wordy. Qed.
Lemma words_width1 : forall n k x, words (width n (fixed k x)) = [fixed k x].
Proof. intros. rewrite <- (app_nil_r (width _ _)), words_width, app_nil_r. apply words_fixed. Qed.
Lemma printM_go : forall A (g : A -> result text) (w : A -> list text) l out, (forall x, In x l -> writes (g x) (w x)) ->
  exists s, foldM (fun out x => s <- g x ;; Ok (out ++ s)) out l = Ok (out ++ s) /\ closed s /\ words s = concat (map w l).
Proof.
  intros A g w. induction l as [|x l IH]; intros out H.
  - exists []. rewrite app_nil_r. split; auto. split; [apply closed_nil|auto].
  - destruct (H x (or_introl eq_refl)) as (s & E & C & W). destruct (IH (out ++ s) ltac:(intros; apply H; right; auto)) as (s' & E' & C' & W').
    exists (s ++ s'). cbn [foldM]. rewrite E. cbn [bind]. rewrite E', app_assoc. split; auto. split; [apply closed_app; auto|]. rewrite C, W, W'. auto.
Qed.
Lemma printM_ok : forall A (g : A -> result text) (w : A -> list text) l, (forall x, In x l -> writes (g x) (w x)) -> writes (printM g l) (concat (map w l)).
Proof. intros A g w l H. destruct (printM_go A g w l [] H) as (s & E & C & W). exists s. auto. Qed.

Ltac wsplit := repeat rewrite words_split by reflexivity.
Ltac norm := unfold sp, nl, tab; cbn [str list_ascii_of_string app]; repeat rewrite <- app_assoc; cbn [app].
Ltac csplit := repeat (apply closed_split; [reflexivity|]); repeat (change (closed ?x) with (closed ([] ++ x)); apply closed_split; [reflexivity|]).

Section Write.
Variables (m : fmesh) (a : amesh).
Hypothesis P : printable m a.

Definition vwords (v : ptr) : list text :=
  let '(x, y, z) := fm_x m v in [fixed 16 x; fixed 16 y; fixed 16 z; pd (fst (fm_c m v)); pd (snd (fm_c m v))].
Lemma w_vertex_ok : forall v, In v (fm_v m) -> writes (w_vertex m v) (vwords v).
Proof using P.
  intros v H. apply (pr_v _ _ P) in H. destruct (get_v _ _ v (reach_inv _ _ (pr_reach _ _ P)) ltac:(unfold live_v in H; congruence)) as (r & E & _).
  unfold w_vertex, vwords, getv. rewrite E. cbn [bind]. destruct (fm_x m v) as [[x y] z]. destruct (fm_c m v) as [gd gi]. cbn [fst snd].
  eexists. split; [reflexivity|]. norm. split.
  - apply closed_split; [reflexivity|]. apply closed_split; [reflexivity|]. apply closed_split; [reflexivity|].
    apply (closed_split [] " "%char); [reflexivity|]. apply (closed_split [] " "%char); [reflexivity|]. apply closed_split; [reflexivity|]. apply closed_split; [reflexivity|]. apply closed_nil.
  - rewrite !words_split by reflexivity. rewrite !words_sp by reflexivity. rewrite !words_split by reflexivity. rewrite !words_width1, !words_pd. auto.
Qed.

Definition ewords (e : ptr) : list text :=
  match a_e a e with
  | Some (_, (v0, v1)) => [pd (pos (fm_v m) v0); pd (pos (fm_v m) v1); pd (fst (fm_c m e)); pd (snd (fm_c m e))]
  | None => []
  end.
Lemma ends_in : forall e v0 v1, a_e a e = Some (true, (v0, v1)) -> In v0 (fm_v m) /\ In v1 (fm_v m) /\ v0 <> NULL /\ v1 <> NULL.
Proof using P.
  intros e v0 v1 H. pose proof (i_w _ _ (reach_inv _ _ (pr_reach _ _ P))) as W. destruct (w_ends _ W _ _ _ H) as [A B]. destruct (pr_ends _ _ P _ _ _ H) as [C D].
  rewrite !(pr_v _ _ P). tauto.
Qed.
Lemma num_ok : forall n p, p <> NULL -> num n p = Ok (n p).
Proof. intros. unfold num. destruct (Z.eqb_spec p NULL); congruence. Qed.
Lemma w_edge_ok : forall e, In e (fm_e m) -> writes (w_edge m (numbers (fm_v m)) e) (ewords e).
Proof using P.
  intros e H. apply (pr_e _ _ P) in H. destruct H as ([v0 v1] & H). pose proof (reach_inv _ _ (pr_reach _ _ P)) as I.
  destruct (ends_in _ _ _ H) as (A & B & C & D). destruct (get_e _ _ e I ltac:(congruence)) as (r & E & V). rewrite H in V. unfold eview in V. inversion V as [[V1 V2 V3]].
  unfold w_edge, ewords, ME_Vertex, gete. rewrite E, H. cbn [bind]. change (0 =? 0) with true. change (1 =? 0) with false. change (1 =? 1) with true. cbn [bind]. rewrite <- V2, <- V3.
  rewrite !num_ok by auto. cbn [bind]. rewrite !numbers_pos by exact (pr_nd _ _ P 0). destruct (fm_c m e) as [gd gi]. cbn [fst snd]. eexists. split; [reflexivity|]. norm. split.
  - apply closed_split; [reflexivity|]. apply closed_split; [reflexivity|]. apply (closed_split [] "009"%char); [reflexivity|]. apply closed_split; [reflexivity|]. apply closed_split; [reflexivity|]. apply closed_nil.
  - rewrite !words_split by reflexivity. rewrite !words_sp by reflexivity. rewrite !words_split by reflexivity. rewrite !words_pd. auto.
Qed.

(** The signed numbers of a boundary. *)
Definition bnum (L : list ptr) (x : ptr * bool) : Z := if snd x then pos L (fst x) else - pos L (fst x).
Definition bwords (L : list ptr) (b : list (ptr * bool)) (p : ptr) : list text :=
  pd (Z.of_nat (length b)) :: map (fun x => pd (bnum L x)) b ++ [pd (fst (fm_c m p)); pd (snd (fm_c m p))].
Lemma concat_one : forall A B (g : A -> B) l, concat (map (fun x => [g x]) l) = map g l.
Proof. induction l; cbn; congruence. Qed.
Lemma line_ok : forall L l (b : list (ptr * bool)) dir p, NoDup L -> l = map fst b -> (forall x, In x b -> fst x <> NULL) ->
  (forall k, (k < length b)%nat -> dir (Z.of_nat k) = Ok (b2z (snd (nth k b (NULL, true))))) ->
  writes (s <- printM (w_part (numbers L) l dir) (zrange 0 (Z.of_nat (length b))) ;;
          let '(gdim, gid) := fm_c m p in Ok (pd (Z.of_nat (length b)) ++ sp ++ s ++ tab ++ pd gdim ++ sp ++ pd gid ++ nl)) (bwords L b p).
Proof using.
  intros L l b dir p ND El NN D.
  destruct (printM_ok _ (w_part (numbers L) l dir) (fun j => [pd (bnum L (nth (Z.to_nat j) b (NULL, true)))]) (zrange 0 (Z.of_nat (length b)))) as (s & E & C & W).
  - intros j Hj. apply in_map_iff in Hj. destruct Hj as (k & <- & Hk). apply in_seq in Hk. rewrite Z.sub_0_r, Nat2Z.id in Hk. rewrite Z.add_0_l. unfold w_part, lent.
    assert (Z.of_nat k <? 0 = false) as -> by lia. cbn [bind]. rewrite D by lia. cbn [bind]. rewrite Nat2Z.id. subst l. change NULL with (fst (NULL, true)) at 1. rewrite map_nth.
    rewrite num_ok by (apply NN; apply nth_In; lia). cbn [bind]. eexists. split; [reflexivity|]. unfold sp.
    split; [apply closed_split; [reflexivity|apply closed_nil]|]. rewrite words_split by reflexivity. rewrite words_pd. cbn [words app]. unfold bnum.
    rewrite numbers_pos by auto. destruct (snd (nth k b (NULL, true))); reflexivity.
  - rewrite E. cbn [bind]. unfold bwords. destruct (fm_c m p) as [gd gi]. cbn [fst snd]. eexists. split; [reflexivity|]. rewrite concat_one in W.
    assert (W' : words s = map (fun x => pd (bnum L x)) b).
    { rewrite W. unfold zrange. rewrite map_map, Z.sub_0_r, Nat2Z.id. clear. rewrite (map_ext _ (fun k => (fun x => pd (bnum L x)) (nth k b (NULL, true)))) by (intros; rewrite Z.add_0_l, Nat2Z.id; auto).
      rewrite <- (map_map (fun k => nth k b (NULL, true)) (fun x => pd (bnum L x))). f_equal. induction b as [|x b IH]; auto. cbn [length seq map nth]. f_equal. rewrite <- seq_shift, map_map. exact IH. }
    norm. split.
    + apply closed_split; [reflexivity|]. apply closed_app; auto. apply (closed_split [] "009"%char); [reflexivity|]. apply closed_split; [reflexivity|]. apply closed_split; [reflexivity|]. apply closed_nil.
    + rewrite words_split by reflexivity. rewrite C, W'. rewrite words_sp by reflexivity. rewrite !words_split by reflexivity. rewrite !words_pd. auto.
Qed.
Lemma face_edges_in : forall f b, a_f a f = Some (true, Some b) -> forall x, In x b -> In (fst x) (fm_e m) /\ fst x <> NULL.
Proof using P.
  intros f b H x Hx. pose proof (i_w _ _ (reach_inv _ _ (pr_reach _ _ P))) as W. pose proof (w_fe _ W _ _ H) as F. rewrite Forall_forall in F. specialize (F _ Hx).
  split; [apply (pr_e _ _ P); auto|]. destruct F as [z Hz]. pose proof (w_e _ W (fst x) ltac:(congruence)). unfold NULL. lia.
Qed.
Lemma reg_faces_in : forall f b, a_r a f = Some (true, Some b) -> forall x, In x b -> In (fst x) (fm_f m) /\ fst x <> NULL.
Proof using P.
  intros f b H x Hx. pose proof (i_w _ _ (reach_inv _ _ (pr_reach _ _ P))) as W. pose proof (w_rf _ W _ _ H) as F. rewrite Forall_forall in F. specialize (F _ Hx).
  destruct F as [z Hz]. split; [apply (pr_f _ _ P); eexists; eauto|]. pose proof (w_f _ W (fst x) ltac:(congruence)). unfold NULL. lia.
Qed.
Lemma nth_vw : forall l g k, (k < length l)%nat -> snd (nth k (vw l 0 g) (NULL, true)) = g (Z.of_nat k).
Proof. intros. rewrite vw_nth by auto. auto. Qed.
Lemma w_face_ok : forall f b, a_f a f = Some (true, Some b) -> writes (w_face m (numbers (fm_e m)) f) (bwords (fm_e m) b f).
Proof using P.
  intros f b H. pose proof (reach_inv _ _ (pr_reach _ _ P)) as I. destruct (inv_full _ _ _ _ I H) as (x & l & E & L & El & Eb & ND & LL & _).
  unfold w_face, MF_Num_Edges, MF_Edges, getf. rewrite E. cbn [bind nn]. rewrite El. cbn [nn bind]. change (NULL =? NULL) with true. change (1 =? 0) with false. cbv iota. cbn [bind].
  assert (ZL l = Z.of_nat (length b)) as -> by (rewrite Eb, vw_length; auto).
  apply line_ok; [exact (pr_nd _ _ P 1)|rewrite Eb, vw_fst; auto|intros; eapply face_edges_in; eauto|].
  intros k Hk. unfold MF_EdgeDir_i, getf. rewrite E. cbn [bind]. rewrite Eb. rewrite Eb, vw_length in Hk. rewrite nth_vw by auto. unfold bit64. unfold ZL in LL.
  assert ((0 <=? Z.of_nat k) && (Z.of_nat k <? 64) = true) as -> by lia. f_equal. rewrite Z.land_comm. change 1 with (Z.ones 1) at 1. rewrite Z.land_comm, Z.land_ones by lia.
  rewrite <- Z.bit0_mod. rewrite Z.shiftr_spec by lia. rewrite Z.add_0_l. destruct (Z.testbit _ _); reflexivity.
Qed.
Lemma w_region_ok : forall r b, a_r a r = Some (true, Some b) -> writes (w_region m (numbers (fm_f m)) r) (bwords (fm_f m) b r).
Proof using P.
  intros r b H. pose proof (reach_inv _ _ (pr_reach _ _ P)) as I. destruct (inv_rfull _ _ _ _ _ I H) as (x & l & E & L & El & R & ND & _).
  unfold w_region, MR_Faces, getr. rewrite E. cbn [bind nn]. rewrite El. cbn [nn bind]. rewrite (rrep_len _ _ _ R).
  assert (l = map fst b) by (rewrite <- (rrep_vw _ _ _ R), vw_fst; auto).
  apply line_ok; [exact (pr_nd _ _ P 2)|auto|intros; eapply reg_faces_in; eauto|].
  intros k Hk. unfold MR_FaceDir_i, getr. rewrite E. cbn [bind]. apply (rrep_get _ _ _ _ R Hk).
Qed.
End Write.
