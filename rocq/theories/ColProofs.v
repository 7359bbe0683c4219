(** Columns: lemmas. *)
From Coq Require Import ZArith Bool Floats.SpecFloat List Lia Arith ZifyBool ZifyNat.
From Verif Require Import Base BaseProofs ListSpec CompareModel TopoModel TopoSpec TopoProofs TopoProofs2 TopoProofs3 TopoProofs5 TopoProofs6 TopoProofs7 TopoProps TopoProps2 ElGraphProps ModProofs ParModel ParProps FileModel SendModel GidProofs2 ColModel ColSpec.
Import ListNotations.
Open Scope Z_scope.

Definition fine {A} (x : result A) : Prop := match x with Ok _ | Fatal => True | _ => False end.

Section Col.
Variables (m : fmesh) (a : amesh).
Hypothesis RE : reach (fm_t m) a.
Hypothesis LR : forall r, In r (fm_r m) <-> live_r a r.
Hypothesis ND : NoDup (fm_r m).
Hypothesis NU : numbered m.
Notation rs := (fm_r m).
Definition ends (r u d : ptr) : Prop := UpDownFaces m r = Ok (u, d).
Definition pos (r : ptr) : nat := Z.to_nat (fm_id m r - 1).
Definition get (l : list Z) (r : ptr) : Z := nth (pos r) l 0.

Lemma pos_in : forall r, In r rs -> nth_error rs (pos r) = Some r /\ fm_id m r - 1 = Z.of_nat (pos r).
Proof using All. intros r H. apply In_nth_error in H. destruct H as [i E]. pose proof (NU _ _ E) as N. unfold pos. replace (Z.to_nat (fm_id m r - 1)) with i by lia. split; auto. lia. Qed.
Lemma pos_lt : forall r, In r rs -> (pos r < length rs)%nat.
Proof using All. intros r H. apply nth_error_Some. rewrite (proj1 (pos_in r H)). discriminate. Qed.
Lemma pos_inj : forall r r', In r rs -> In r' rs -> pos r = pos r' -> r = r'.
Proof using All. intros r r' H H' E. destruct (pos_in r H) as [A _]. destruct (pos_in r' H') as [B _]. rewrite E in A. congruence. Qed.
Lemma rd_get : forall l r, In r rs -> length l = length rs -> rdl l (fm_id m r - 1) = Ok (get l r).
Proof using All. intros l r H L. destruct (pos_in r H) as [_ E]. pose proof (pos_lt r H). rewrite rdl_ok by lia. unfold get, pos. reflexivity. Qed.
Lemma wr_get : forall l r x, In r rs -> length l = length rs -> exists l', wrl l (fm_id m r - 1) x = Ok l' /\ length l' = length rs /\ get l' r = x /\ (forall r', In r' rs -> r' <> r -> get l' r' = get l r') /\ l' = upd_nth l (pos r) x.
Proof using All.
  intros l r x H L. destruct (pos_in r H) as [_ E]. pose proof (pos_lt r H) as LT. rewrite wrl_ok by lia. eexists. split; [reflexivity|]. fold (pos r). split; [rewrite upd_nth_length; auto|]. assert (G : forall r', get (upd_nth l (pos r) x) r' = if (pos r' =? pos r)%nat then x else get l r').
  { intro r'. unfold get. destruct (nth_error (upd_nth l (pos r) x) (pos r')) as [y|] eqn:Y.
    - rewrite (nth_error_nth _ _ _ Y). rewrite nth_error_upd in Y by lia. destruct (pos r' =? pos r)%nat; [congruence|]. symmetry. apply nth_error_nth. exact Y.
    - rewrite nth_overflow by (apply nth_error_None; auto). rewrite nth_error_upd in Y by lia. destruct (pos r' =? pos r)%nat; [discriminate|]. rewrite nth_overflow; auto. apply nth_error_None; auto. }
  split; [rewrite G, Nat.eqb_refl; auto|]. split; auto. intros r' H' N. rewrite G. destruct (Nat.eqb_spec (pos r') (pos r)); auto. exfalso. apply N, pos_inj; auto.
Qed.

(** ** The faces above and below *)
Lemma two_ends_in : forall l up u d, two_ends m up l = Ok (u, d) -> (up = Some u \/ In u l) /\ In d l.
Proof using All.
  induction l as [|f l IH]; intros up u d H; [discriminate|]. cbn [two_ends] in H. destruct (IsSideFace m f) as [side| | |]; try discriminate. cbn [bind] in H.
  assert (X : forall up', match l with [] => Fatal | _ => two_ends m up' l end = Ok (u, d) -> (up' = Some u \/ In u l) /\ In d l) by (intros up' X; destruct l; [discriminate|apply IH; exact X]).
  destruct side; [|destruct up as [w|]].
  - apply X in H. destruct H as [[H|H] H']; cbn; auto.
  - inversion H. subst. cbn. auto.
  - apply X in H. destruct H as [[H|H] H']; cbn; auto. inversion H. subst. auto.
Qed.
Lemma region_faces : forall r, In r rs -> (exists b, a_r a r = Some (true, Some b)) -> exists l, MR_Faces (fm_t m) r = Ok l /\ forall f, In f l <-> on_face a r f.
Proof using All.
  intros r _ (b & Hb). pose proof (reach_inv _ _ RE) as I. destruct (inv_rfull _ _ _ _ _ I Hb) as (x & l & Hx & _ & Hl & (El & _) & _). exists l. unfold MR_Faces, getr. rewrite Hx. cbn [bind]. rewrite Hl. split; auto. intro f. rewrite El, in_map_iff. unfold on_face, has_face. split.
  - intros ([f' d] & <- & H). exists d, b. auto.
  - intros (d & b' & E & H). rewrite Hb in E. inversion E. subst b'. exists (f, d). auto.
Qed.
Hypothesis RF : forall r, a_r a r <> Some (true, None).
Lemma full : forall r, In r rs -> exists b, a_r a r = Some (true, Some b).
Proof using All. intros r H. apply LR in H. destruct H as [[b|] H]; eauto. exfalso. eapply RF; eauto. Qed.
Lemma ends_on : forall r u d, In r rs -> ends r u d -> on_face a r u /\ on_face a r d.
Proof using All.
  intros r u d H E. destruct (region_faces r H (full r H)) as (l & El & Hl). unfold ends, UpDownFaces in E. rewrite El in E. cbn [bind] in E. destruct (two_ends m None l) as [[u0 d0]| | |] eqn:T; try discriminate E. cbn [bind] in E. apply two_ends_in in T. destruct T as [[T|T] T']; [discriminate|].
  destruct (MF_Coords m u0); try discriminate E. cbn [bind] in E. destruct (MF_Coords m d0); try discriminate E. cbn [bind] in E. destruct (differ _ _ || differ _ _); try discriminate E. destruct (SFltb _ _); [|destruct (SFltb _ _); [|discriminate E]]; inversion E; subst; split; apply Hl; auto.
Qed.
Lemma ends_fun : forall r u d u' d', ends r u d -> ends r u' d' -> u = u' /\ d = d'.
Proof. unfold ends. intros. split; congruence. Qed.
Lemma on_live : forall r f, on_face a r f -> In r rs.
Proof using All. intros r f (d & b & E & _). apply LR. eexists. eauto. Qed.
(** The one or two cells of a face. *)
Lemma face_regs : forall r f, on_face a r f -> exists l, MF_Regions (fm_t m) f = Ok l /\ (forall q, In q l <-> on_face a q f) /\ ((l = [r]) \/ exists q, q <> r /\ (l = [r; q] \/ l = [q; r])).
Proof using All.
  intros r f H. destruct (regs_of_ok _ _ _ _ RE H) as (E & N & I). exists (regs_of (fm_t m) f). split; auto. split; auto. assert (L : (length (regs_of (fm_t m) f) <= 2)%nat).
  { unfold MF_Regions in E. destruct (getf (fm_t m) f) as [x| | |]; try discriminate E. cbn [bind] in E. inversion E as [E']. destruct (f_r0 x =? NULL), (f_r1 x =? NULL); cbn; lia. }
  apply I in H. destruct (regs_of (fm_t m) f) as [|x [|y [|z l]]]; cbn in *; try lia; try contradiction.
  - left. destruct H as [->|[]]. auto.
  - inversion N as [|? ? N1 N2]. subst. right. destruct H as [->|[->|[]]]; [exists y|exists x]; (split; [intros ->; apply N1; cbn; auto|]); auto.
Qed.

(** ** One column above each cell *)
Lemma below_unique : forall r1 r2 r, In r1 rs -> In r2 rs -> below a ends r1 r -> below a ends r2 r -> r1 = r2.
Proof using All.
  intros r1 r2 r H1 H2 (u1 & d1 & e1 & E1 & F1 & O1 & N1) (u2 & d2 & e2 & E2 & F2 & O2 & N2). destruct (ends_fun _ _ _ _ _ F1 F2) as [<- _]. pose proof (proj2 (ends_on _ _ _ H1 E1)) as X1. pose proof (proj2 (ends_on _ _ _ H2 E2)) as X2.
  destruct (face_regs _ _ O1) as (l & _ & I & [->|(q & _ & [->| ->])]); apply I in X1, X2; cbn in X1, X2; intuition congruence.
Qed.
Lemma below_not_top : forall r0 r, In r0 rs -> below a ends r0 r -> ~ topmost a ends r.
Proof using All. intros r0 r H (u & d & d' & E & F & O & N) (u1 & d1 & E1 & T). destruct (ends_fun _ _ _ _ _ F E1) as [<- _]. apply N. symmetry. apply T. eapply ends_on; eauto. Qed.
Lemma below_in : forall r r', below a ends r r' -> In r' rs.
Proof using All. intros r r' (u & d & d' & E & F & O & N). eapply on_live; eauto. Qed.
Lemma column_in : forall t r, In t rs -> column a ends t r -> In r rs.
Proof using All. intros t r H C. induction C; auto. eapply below_in; eauto. Qed.
Lemma column_unique : forall t t' r, In t rs -> In t' rs -> topmost a ends t -> topmost a ends t' -> column a ends t r -> column a ends t' r -> t = t'.
Proof using All.
  intros t t' r H H' T T' C. induction C as [|r0 r C IH B]; intro C'.
  - inversion C' as [|r1 r2 C1 B1]; auto. subst. exfalso. eapply below_not_top; [|exact B1|exact T]. eapply column_in; eauto.
  - inversion C' as [|r1 r2 C1 B1]; subst.
    + exfalso. eapply below_not_top; [|exact B|exact T']. eapply column_in; [|exact C]; auto.
    + apply IH. rewrite (below_unique r0 r1 r); auto; [eapply column_in; [|exact C]; auto|eapply column_in; [|exact C1]; auto].
Qed.

(** ** What is done *)
Variable part0 : list Z.
Hypothesis LP : length part0 = length rs.
Record inv (P T : list Z) : Prop := mkInv {
  v_P : length P = length rs;
  v_T : length T = length rs;
  v_new : forall r, In r rs -> get T r = 0 -> get P r = get part0 r;
  v_old : forall r, In r rs -> get T r <> 0 -> exists t, In t rs /\ topmost a ends t /\ column a ends t r /\ get P r = get part0 t;
  v_down : forall r r', In r rs -> get T r <> 0 -> below a ends r r' -> get T r' <> 0 }.
Record winv (t cur expected : ptr) (home : Z) (P T : list Z) : Prop := mkWinv {
  w_P : length P = length rs;
  w_T : length T = length rs;
  w_t : In t rs /\ topmost a ends t /\ home = get part0 t;
  w_cur : In cur rs /\ get P cur = home;
  w_col : forall d, ends cur expected d -> column a ends t cur;
  w_new : forall r, In r rs -> r <> cur -> get T r = 0 -> get P r = get part0 r;
  w_old : forall r, In r rs -> r <> cur -> get T r <> 0 -> exists t, In t rs /\ topmost a ends t /\ column a ends t r /\ get P r = get part0 t;
  w_down : forall r r', In r rs -> get T r <> 0 -> below a ends r r' -> get T r' <> 0 \/ r' = cur }.

Lemma walk_inv : forall fuel t cur expected home P T P' T', winv t cur expected home P T -> walk fuel m home (P, T) cur expected = Ok (P', T') ->
  inv P' T' /\ get T' cur <> 0 /\ forall r, In r rs -> get T r <> 0 -> get T' r <> 0.
Proof using All.
  induction fuel as [|k IH]; intros t cur expected home P T P' T' W E; [discriminate|]. destruct W as [W1 W2 (W3 & W3' & W3'') [W4 W4'] W5 W6 W7 W8]. cbn [walk] in E. rewrite (rd_get T cur W4 W2) in E. cbn [bind] in E. destruct (Z.eqb_spec (get T cur) 0) as [Z0|Z0]; [|discriminate E]. cbn [negb] in E.
  destruct (wr_get T cur 1 W4 W2) as (T1 & ET & LT & G1 & G2 & _). rewrite ET in E. cbn [bind] in E. destruct (UpDownFaces m cur) as [[top bot]| | |] eqn:EU; try discriminate E. cbn [bind] in E. destruct (Z.eqb_spec top expected) as [<-|]; [|discriminate E]. cbn [negb] in E.
  fold (ends cur top bot) in EU. destruct (ends_on _ _ _ W4 EU) as [OT OB]. pose proof (W5 _ EU) as CC. destruct (face_regs _ _ OB) as (l & EL & IL & SH). rewrite EL in E. cbn [bind] in E.
  assert (MO : forall r, In r rs -> get T r <> 0 -> get T1 r <> 0) by (intros r Hr N; destruct (Z.eq_dec r cur) as [->|Nr]; [lia|rewrite G2; auto]).
  destruct SH as [->|(q & Nq & SH)].
  - cbn [ZL length Z.of_nat Z.eqb] in E. change (ZL [cur] =? 2) with false in E. cbn match in E. inversion E. subst P' T'. split; [|split; [lia|auto]]. constructor; auto.
    + intros r Hr N. destruct (Z.eq_dec r cur) as [->|Nr]; [lia|]. rewrite G2 in N by auto. auto.
    + intros r Hr N. destruct (Z.eq_dec r cur) as [->|Nr]; [exists t; split; auto; split; auto; split; auto; congruence|]. rewrite G2 in N by auto. auto.
    + intros r r' Hr N B. pose proof (below_in _ _ B) as Hr'. destruct (Z.eq_dec r' cur) as [->|Nr']; [lia|]. rewrite G2 by auto. destruct (Z.eq_dec r cur) as [->|Nr].
      * exfalso. destruct B as (u & d & d' & B1 & B2 & B3 & B4). destruct (ends_fun _ _ _ _ _ EU B1) as [_ <-]. apply IL in B3. cbn in B3. intuition.
      * rewrite G2 in N by auto. destruct (W8 _ _ Hr N B); [auto|contradiction].
  - assert (Iq : on_face a q bot) by (apply IL; destruct SH as [-> | ->]; cbn; auto). pose proof (on_live _ _ Iq) as Hq.
    assert (E' : (p <- rdl P (fm_id m q - 1) ;; part <- (if negb (p =? home) then wrl P (fm_id m q - 1) home else Ok P) ;; walk k m home (part, T1) q bot) = Ok (P', T')).
    { destruct SH as [-> | ->].
      - change (ZL [cur; q] =? 2) with true in E. cbn match in E. change (lent [cur; q] 0) with (@Ok ptr cur) in E. cbn [bind] in E. rewrite Z.eqb_refl in E. exact E.
      - change (ZL [q; cur] =? 2) with true in E. cbn match in E. change (lent [q; cur] 0) with (@Ok ptr q) in E. cbn [bind] in E. replace (q =? cur) with false in E by lia. exact E. }
    clear E. rewrite (rd_get P q Hq W1) in E'. cbn [bind] in E'.
    assert (X : exists P1, (if negb (get P q =? home) then wrl P (fm_id m q - 1) home else Ok P) = Ok P1 /\ length P1 = length rs /\ get P1 q = home /\ forall r, In r rs -> r <> q -> get P1 r = get P r).
    { destruct (Z.eqb_spec (get P q) home) as [Eh|Eh]; cbn [negb]; [exists P; auto|]. destruct (wr_get P q home Hq W1) as (P1 & A1 & A2 & A3 & A4 & _). exists P1. auto. }
    destruct X as (P1 & EP & LP1 & Q1 & Q2). rewrite EP in E'. cbn [bind] in E'.
    assert (BQ : forall r', below a ends cur r' -> r' = q).
    { intros r' (u & d & d' & B1 & B2 & B3 & B4). destruct (ends_fun _ _ _ _ _ EU B1) as [_ <-]. apply IL in B3. destruct SH as [-> | ->]; cbn in B3; intuition. }
    destruct (IH t q bot home P1 T1 P' T') as (I & Q & MT); auto.
    { constructor; auto.
      - intros d Ed. eapply col_next; [exact CC|]. exists top, bot, d. auto.
      - intros r Hr Nr N. rewrite Q2 by auto. destruct (Z.eq_dec r cur) as [->|Nc]; [lia|]. rewrite G2 in N by auto. auto.
      - intros r Hr Nr N. rewrite Q2 by auto. destruct (Z.eq_dec r cur) as [->|Nc]; [exists t; split; auto; split; auto; split; auto; congruence|]. rewrite G2 in N by auto. auto.
      - intros r r' Hr N B. destruct (Z.eq_dec r cur) as [->|Nr]; [right; auto|]. rewrite G2 in N by auto. pose proof (below_in _ _ B) as Hr'. destruct (W8 _ _ Hr N B) as [X|X]; [left; apply MO; auto|left; subst r'; lia]. }
    split; auto. split; [apply MT; auto; lia|]. auto.
Qed.
Lemma column_inv : forall P T r P' T', inv P T -> In r rs -> column_at m (P, T) r = Ok (P', T') -> inv P' T' /\ (topmost a ends r -> get T' r <> 0) /\ forall q, In q rs -> get T q <> 0 -> get T' q <> 0.
Proof using All.
  intros P T r P' T' I Hr E. unfold column_at in E. destruct (UpDownFaces m r) as [[top bot]| | |] eqn:EU; try discriminate E. cbn [bind] in E. fold (ends r top bot) in EU. destruct (ends_on _ _ _ Hr EU) as [OT OB]. destruct (face_regs _ _ OT) as (l & EL & IL & SH). rewrite EL in E. cbn [bind fst snd] in E.
  destruct SH as [->|(q & Nq & SH)].
  - change (ZL [r] =? 1) with true in E. cbn match in E. rewrite (rd_get P r Hr (v_P _ _ I)) in E. cbn [bind] in E. destruct I as [I1 I2 I3 I4 I5].
    assert (TM : topmost a ends r) by (exists top, bot; split; auto; intros q Hq; apply IL in Hq; cbn in Hq; intuition).
    destruct (Z.eq_dec (get T r) 0) as [Z0|Z0].
    + assert (WI : winv r r top (get P r) P T) by (constructor; auto; intros; left; eauto). destruct (walk_inv (S (length T)) r r top (get P r) P T P' T' WI E) as (A & B & C). auto.
    + exfalso. cbn [walk] in E. rewrite (rd_get T r Hr I2) in E. cbn [bind] in E. replace (get T r =? 0) with false in E by lia. discriminate E.
  - assert (ZL l =? 1 = false) by (destruct SH as [-> | ->]; reflexivity). rewrite H in E. inversion E. subst. split; auto. split; auto. intros (u & d & E1 & TT). destruct (ends_fun _ _ _ _ _ EU E1) as [<- _]. exfalso. apply Nq. apply TT. apply IL. destruct SH as [-> | ->]; cbn; auto.
Qed.
Lemma columns_inv : forall l P T P' T', inv P T -> incl l rs -> foldM (column_at m) (P, T) l = Ok (P', T') -> inv P' T' /\ (forall t, In t l -> topmost a ends t -> get T' t <> 0) /\ forall q, In q rs -> get T q <> 0 -> get T' q <> 0.
Proof using All.
  induction l as [|r l IH]; intros P T P' T' I Hl E; cbn [foldM] in E. { inversion E. subst. split; auto. }
  destruct (column_at m (P, T) r) as [[P1 T1]| | |] eqn:E1; try discriminate E. cbn [bind] in E. destruct (column_inv _ _ _ _ _ I (Hl r ltac:(cbn; auto)) E1) as (I1 & A & B). destruct (IH P1 T1 P' T' I1) as (I2 & C & D); auto. { intros x Hx. apply Hl. cbn. auto. }
  split; auto. split; auto. intros t [<-|Ht] TM; auto. apply D; auto. apply Hl. cbn. auto.
Qed.
Lemma inv_start : inv part0 (repeat 0 (length rs)).
Proof using All. assert (Z : forall r, get (repeat 0 (length rs)) r = 0) by (intro r; unfold get; apply nth_repeat). constructor; auto; try (intros; exfalso; rewrite Z in *; congruence). apply repeat_length. Qed.
Lemma fix_inv : forall part', FixColumnPartitions m part0 = Ok part' -> length part' = length rs /\ exists T, inv part' T /\ forall t, In t rs -> topmost a ends t -> get T t <> 0.
Proof using All.
  intros part' E. assert (X : rs = [] /\ part' = part0 \/ exists T, foldM (column_at m) (part0, repeat 0 (length rs)) rs = Ok (part', T)).
  { unfold FixColumnPartitions in E. clear - E. destruct rs as [|r0 l0]; [left; split; congruence|right]. destruct (foldM _ _ _) as [[P T]| | |]; try discriminate E. inversion E. eauto. }
  destruct X as [[E1 ->]|(T & EF)].
  - split; [exact LP|]. exists (repeat 0 (length rs)). split; [apply inv_start|]. intros t Ht. rewrite E1 in Ht. destruct Ht.
  - destruct (columns_inv _ _ _ _ _ inv_start (incl_refl _) EF) as (I & A & _). split; [apply (v_P _ _ I)|]. exists T. auto.
Qed.

(** ** It ends *)
Definition zeros (l : list Z) : nat := length (filter (fun x => x =? 0) l).
Lemma zeros_upd : forall l k, nth_error l k = Some 0 -> (zeros (upd_nth l k 1%Z) < zeros l)%nat.
Proof using All.
  unfold zeros. induction l as [|x l IH]; intros [|k] H; try discriminate; cbn [nth_error upd_nth filter] in *.
  - inversion H. subst. cbn. lia.
  - specialize (IH k H). destruct (x =? 0); cbn [length]; lia.
Qed.
Lemma zeros_get : forall T cur T1, In cur rs -> length T = length rs -> get T cur = 0 -> T1 = upd_nth T (pos cur) 1 -> (zeros T1 < zeros T)%nat.
Proof using All. intros T cur T1 H L G ->. apply zeros_upd. rewrite <- G. apply nth_error_nth'. rewrite L. apply pos_lt. auto. Qed.

Lemma walk_fine : (forall r, In r rs -> fine (UpDownFaces m r)) -> forall fuel home P T cur expected, length P = length rs -> length T = length rs -> In cur rs -> (zeros T < fuel)%nat -> fine (walk fuel m home (P, T) cur expected).
Proof using All.
  intro UF. induction fuel as [|k IH]; intros home P T cur expected LP1 LT H HF; [lia|]. cbn [walk]. rewrite (rd_get T cur H LT). cbn [bind]. destruct (Z.eqb_spec (get T cur) 0) as [Z0|Z0]; [|exact I]. cbn [negb].
  destruct (wr_get T cur 1 H LT) as (T1 & ET & LT1 & _ & _ & UT). rewrite ET. cbn [bind]. pose proof (zeros_get T cur T1 H LT Z0 UT) as ZT. pose proof (UF cur H) as FU. destruct (UpDownFaces m cur) as [[top bot]| | |] eqn:EU; try exact FU. cbn [bind]. destruct (negb (top =? expected)); [exact I|].
  destruct (ends_on _ _ _ H EU) as [_ OB]. destruct (face_regs _ _ OB) as (l & EL & IL & SH). rewrite EL. cbn [bind]. destruct SH as [->|(q & Nq & SH)]; [exact I|]. assert (Hq : In q rs) by (apply (on_live q bot), IL; destruct SH as [-> | ->]; cbn; auto).
  assert (X : forall y, y = Ok q -> fine (nxt <- y ;; p <- rdl P (fm_id m nxt - 1) ;; part <- (if negb (p =? home) then wrl P (fm_id m nxt - 1) home else Ok P) ;; walk k m home (part, T1) nxt bot)).
  { intros y ->. cbn [bind]. rewrite (rd_get P q Hq LP1). cbn [bind]. destruct (negb (get P q =? home)).
    - destruct (wr_get P q home Hq LP1) as (P1 & A1 & A2 & _). rewrite A1. cbn [bind]. apply IH; auto. lia.
    - cbn [bind]. apply IH; auto. lia. }
  destruct SH as [-> | ->].
  - change (ZL [cur; q] =? 2) with true. cbn match. change (lent [cur; q] 0) with (@Ok ptr cur). cbn [bind]. rewrite Z.eqb_refl. apply X. reflexivity.
  - change (ZL [q; cur] =? 2) with true. cbn match. change (lent [q; cur] 0) with (@Ok ptr q). cbn [bind]. replace (q =? cur) with false by lia. apply X. reflexivity.
Qed.
Lemma zeros_len : forall l, (zeros l <= length l)%nat.
Proof using All. unfold zeros. induction l as [|x l IH]; cbn [filter length]; [lia|]. destruct (x =? 0); cbn [length]; lia. Qed.
Lemma column_fine : (forall r, In r rs -> fine (UpDownFaces m r)) -> forall P T r, inv P T -> In r rs -> fine (column_at m (P, T) r).
Proof using All.
  intros UF P T r I H. unfold column_at. pose proof (UF r H) as FU. destruct (UpDownFaces m r) as [[top bot]| | |] eqn:EU; try exact FU. cbn [bind fst snd]. destruct (ends_on _ _ _ H EU) as [OT _]. destruct (face_regs _ _ OT) as (l & EL & IL & SH). rewrite EL. cbn [bind]. destruct (ZL l =? 1); [|exact Logic.I]. rewrite (rd_get P r H (v_P _ _ I)). cbn [bind]. apply walk_fine; auto; try apply I. pose proof (zeros_len T). lia.
Qed.
Lemma columns_fine : (forall r, In r rs -> fine (UpDownFaces m r)) -> forall l P T, inv P T -> incl l rs -> fine (foldM (column_at m) (P, T) l).
Proof using All.
  intro UF. induction l as [|r l IH]; intros P T I Hl; cbn [foldM]; [exact Logic.I|]. assert (Hr : In r rs) by (apply Hl; cbn; auto). pose proof (column_fine UF P T r I Hr) as F. destruct (column_at m (P, T) r) as [[P1 T1]| | |] eqn:E; try exact F. cbn [bind]. apply IH; [apply (column_inv _ _ _ _ _ I Hr E)|intros x Hx; apply Hl; cbn; auto].
Qed.

(** ** Columnar meshes *)
Variable level : ptr -> nat.
Hypothesis CM : columnar a ends rs level.
Lemma in_column : forall r, In r rs -> exists t, In t rs /\ topmost a ends t /\ column a ends t r.
Proof using All.
  intro r. remember (level r) as n eqn:En. revert r En. induction n as [n IH] using lt_wf_ind. intros r En H. destruct (cm_ends _ _ _ _ CM r H) as (u & d & E). destruct (ends_on _ _ _ H E) as [OU _]. destruct (face_regs _ _ OU) as (l & _ & IL & SH). destruct SH as [->|(q & Nq & SH)].
  - exists r. split; auto. split; [|constructor]. exists u, d. split; auto. intros x Hx. apply IL in Hx. cbn in Hx. intuition.
  - assert (OQ : on_face a q u) by (apply IL; destruct SH as [-> | ->]; cbn; auto). pose proof (on_live _ _ OQ) as Hq. destruct (cm_up _ _ _ _ CM r u d q H E OQ Nq) as (u' & Eq). destruct (cm_down _ _ _ _ CM q u' u r Hq Eq OU ltac:(auto)) as [_ LV].
    destruct (IH (level q) ltac:(lia) q eq_refl Hq) as (t & Ht & TT & C). exists t. split; auto. split; auto. eapply col_next; [exact C|]. exists u', u, d. auto.
Qed.
Lemma walk_runs : forall fuel t home P T cur expected, length P = length rs -> length T = length rs -> In t rs -> topmost a ends t -> In cur rs -> column a ends t cur -> (exists d, ends cur expected d) ->
  (forall r, In r rs -> get T r <> 0 -> exists t', In t' rs /\ topmost a ends t' /\ column a ends t' r /\ (t' <> t \/ (level r < level cur)%nat)) -> (zeros T < fuel)%nat ->
  exists P' T', walk fuel m home (P, T) cur expected = Ok (P', T') /\ forall r, In r rs -> get T' r <> 0 -> get T r <> 0 \/ column a ends t r.
Proof using All.
  induction fuel as [|k IH]; intros t home P T cur expected LP1 LT Ht TT H CC (bot & EU) TD HF; [lia|]. cbn [walk]. rewrite (rd_get T cur H LT). cbn [bind].
  destruct (Z.eqb_spec (get T cur) 0) as [Z0|Z0]. 2: { exfalso. destruct (TD cur H Z0) as (t' & Ht' & TT' & CC' & [N|N]); [|lia]. apply N. eapply column_unique; eauto. } cbn [negb].
  destruct (wr_get T cur 1 H LT) as (T1 & ET & LT1 & G1 & G2 & UT). rewrite ET. cbn [bind]. pose proof (zeros_get T cur T1 H LT Z0 UT) as ZT. pose proof EU as EU'. unfold ends in EU'. rewrite EU'. cbn [bind]. rewrite Z.eqb_refl. cbn [negb].
  destruct (ends_on _ _ _ H EU) as [_ OB]. destruct (face_regs _ _ OB) as (l & EL & IL & SH). rewrite EL. cbn [bind].
  assert (TC : forall r, In r rs -> get T1 r <> 0 -> r = cur \/ get T r <> 0) by (intros r Hr N; destruct (Z.eq_dec r cur) as [->|Nr]; auto; rewrite G2 in N by auto; auto).
  destruct SH as [->|(q & Nq & SH)].
  { exists P, T1. split; [reflexivity|]. intros r Hr N. destruct (TC r Hr N) as [->|]; auto. }
  assert (OQ : on_face a q bot) by (apply IL; destruct SH as [-> | ->]; cbn; auto). pose proof (on_live _ _ OQ) as Hq. destruct (cm_down _ _ _ _ CM cur expected bot q H EU OQ Nq) as [(d' & EQ) LV].
  assert (CQ : column a ends t q) by (eapply col_next; [exact CC|]; exists expected, bot, d'; auto).
  assert (X : forall y, y = Ok q -> exists P' T', (nxt <- y ;; p <- rdl P (fm_id m nxt - 1) ;; part <- (if negb (p =? home) then wrl P (fm_id m nxt - 1) home else Ok P) ;; walk k m home (part, T1) nxt bot) = Ok (P', T') /\ forall r, In r rs -> get T' r <> 0 -> get T r <> 0 \/ column a ends t r).
  { intros y ->. cbn [bind]. rewrite (rd_get P q Hq LP1). cbn [bind]. assert (Y : exists P1, (if negb (get P q =? home) then wrl P (fm_id m q - 1) home else Ok P) = Ok P1 /\ length P1 = length rs).
    { destruct (negb (get P q =? home)); [|eauto]. destruct (wr_get P q home Hq LP1) as (P1 & A1 & A2 & _). eauto. }
    destruct Y as (P1 & EP & LP2). rewrite EP. cbn [bind]. destruct (IH t home P1 T1 q bot) as (P' & T' & E & M); auto; [eauto| |lia|].
    - intros r Hr N. destruct (TC r Hr N) as [->|N'].
      + exists t. split; auto. split; auto. split; auto. right. lia.
      + destruct (TD r Hr N') as (t' & A1 & A2 & A3 & [A4|A4]); exists t'; split; auto; split; auto; split; auto. right. lia.
    - exists P', T'. split; auto. intros r Hr N. destruct (M r Hr N) as [N'|]; auto. destruct (TC r Hr N') as [->|]; auto. }
  destruct SH as [-> | ->].
  - change (ZL [cur; q] =? 2) with true. cbn match. change (lent [cur; q] 0) with (@Ok ptr cur). cbn [bind]. rewrite Z.eqb_refl. apply X. reflexivity.
  - change (ZL [q; cur] =? 2) with true. cbn match. change (lent [q; cur] 0) with (@Ok ptr q). cbn [bind]. replace (q =? cur) with false by lia. apply X. reflexivity.
Qed.
Lemma columns_run : forall l P T, inv P T -> incl l rs -> NoDup l -> (forall r, In r rs -> get T r <> 0 -> exists t, In t rs /\ topmost a ends t /\ column a ends t r /\ ~ In t l) -> exists P' T', foldM (column_at m) (P, T) l = Ok (P', T').
Proof using All.
  induction l as [|r l IH]; intros P T I Hl NL TD; cbn [foldM]; [eauto|]. assert (Hr : In r rs) by (apply Hl; cbn; auto). inversion NL as [|? ? NI NL']. subst.
  assert (X : exists P1 T1, column_at m (P, T) r = Ok (P1, T1) /\ forall q, In q rs -> get T1 q <> 0 -> get T q <> 0 \/ topmost a ends r /\ column a ends r q).
  { unfold column_at. destruct (cm_ends _ _ _ _ CM r Hr) as (u & d & E). pose proof E as EU. unfold ends in EU. rewrite EU. cbn [bind fst snd]. destruct (ends_on _ _ _ Hr E) as [OT _]. destruct (face_regs _ _ OT) as (l0 & EL & IL & SH). rewrite EL. cbn [bind]. destruct SH as [->|(q & Nq & SH)].
    - change (ZL [r] =? 1) with true. cbn match. rewrite (rd_get P r Hr (v_P _ _ I)). cbn [bind]. assert (TM : topmost a ends r) by (exists u, d; split; auto; intros q Hq; apply IL in Hq; cbn in Hq; intuition).
      destruct (walk_runs (S (length T)) r (get P r) P T r u) as (P1 & T1 & E1 & M); auto; try apply I; [constructor|eauto| | |].
      + intros q Hq N. destruct (TD q Hq N) as (t & A1 & A2 & A3 & A4). exists t. split; auto. split; auto. split; auto. left. intros ->. apply A4. cbn. auto.
      + pose proof (zeros_len T). lia.
      + exists P1, T1. split; auto. intros q Hq N. destruct (M q Hq N); auto.
    - assert (ZL l0 =? 1 = false) by (destruct SH as [-> | ->]; reflexivity). rewrite H. eauto 6. }
  destruct X as (P1 & T1 & E1 & M). rewrite E1. cbn [bind]. apply IH; auto.
  - apply (column_inv _ _ _ _ _ I Hr E1).
  - intros x Hx. apply Hl. cbn. auto.
  - intros q Hq N. destruct (M q Hq N) as [N'|[TM C]].
    + destruct (TD q Hq N') as (t & A1 & A2 & A3 & A4). exists t. split; auto. split; auto. split; auto. intro. apply A4. cbn. auto.
    + exists r. auto.
Qed.
End Col.
